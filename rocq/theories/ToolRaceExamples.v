(** The solver used by several threads: answers that the solver used by one thread never gives. *)
From Coq Require Import Reals Lra Lia List Bool Arith ZArith.
From Verif Require Import Kdl KdlFacts KdlRot KdlRotFacts Trig TrigFacts KinRep KinRepFacts KdlSolver KdlSolverFacts KdlSolverExamples Ft Tree Dyn DynExamples ToolRace ToolRaceSpec ToolRaceFacts ToolRaceFacts2 ToolRaceFacts3.
Import ListNotations.
Open Scope R_scope.
Local Notation length := List.length.

Definition no_ik (c : chain) (q : list R) (h : frame) : option (list R) := None.
Definition no_vel (c : chain) (q : list R) (t : twist) : option (list R) := None.
(** the crank, whose links have no mass, and no gravity *)
Definition light : chain_solvers := dyn_solvers no_vel vzero [].
Lemma pass_length : forall bs v a q qd qdd f ts, rne_pass v a bs q qd qdd = Some (f, ts) ->
  length ts = nr_of_joints (map (fun p => fst (fst p)) bs).
Proof.
  induction bs as [|[[s i] fe] bs IH]; intros v a q qd qdd f ts E; cbn [map fst]; [cbn in E; destruct q, qd, qdd; try discriminate; injection E as <- <-; reflexivity|].
  rewrite nr_cons. cbn [rne_pass] in E. destruct (is_fixed (s_joint s)).
  - match type of E with match ?r with _ => _ end = _ => destruct r as [[f' ts']|] eqn:Er; [|discriminate] end. injection E as <- <-. apply IH in Er. exact Er.
  - destruct q as [|x q], qd as [|xd qd], qdd as [|xdd qdd]; try discriminate.
    match type of E with match ?r with _ => _ end = _ => destruct r as [[f' ts']|] eqn:Er; [|discriminate] end. injection E as <- <-. apply IH in Er. cbn. rewrite Er. reflexivity.
Qed.
Lemma fst_combine {A B} : forall (l : list A) (m : list B), length m = length l -> map fst (combine l m) = l.
Proof. induction l as [|x l IH]; intros [|y m] L; cbn in *; try discriminate; [reflexivity|]. rewrite IH by lia. reflexivity. Qed.
(** any masses, any gravity *)
Lemma dyn_sized ik vel g is :
  (forall c q x l, ik c q x = Some l -> length l = nr_of_joints c) -> (forall c q x l, vel c q x = Some l -> length l = nr_of_joints c) ->
  sized ik (dyn_solvers vel g is).
Proof.
  intros H1 H2. split; [exact H1|]. split; [exact H2|]. intros c q qd qdd fs l E _ _ _. cbn [dyn_solvers c_dyn] in E. unfold rne in E.
  destruct (Nat.eqb_spec (length fs) (length c)) as [L|]; [|discriminate]. split; [|exact L].
  destruct (rne_pass _ _ _ _ _ _) as [[f ts]|] eqn:P; [|discriminate]. cbn in E. injection E as <-. rewrite (pass_length _ _ _ _ _ _ _ _ P). f_equal.
  unfold loaded. set (m := firstn _ _ ++ _). assert (length m = length c) as Lm by (unfold m; rewrite app_length, firstn_length, repeat_length; lia).
  rewrite <- (map_map fst fst). rewrite fst_combine by (rewrite combine_length; lia). apply fst_combine. exact Lm.
Qed.
Lemma light_sized : sized no_ik light.
Proof. apply dyn_sized; discriminate. Qed.

(** the pose of the crank *)
Lemma zero_rad : degToRad 0 = 0.
Proof. unfold degToRad. ring. Qed.
Lemma crank_joints t : joints_in (crank_chain ++ t) [0] = (if Nat.leb (nr_of_joints (crank_chain ++ t)) 1 then Some (map degToRad (firstn (nr_of_joints (crank_chain ++ t)) [0])) else None).
Proof. reflexivity. Qed.
Lemma crank_at : fwdKin crank_solver [0] = Some [1; 0; 0; 0; 0; 0].
Proof.
  unfold fwdKin. cbn [sv_chain crank_solver]. change (joints_in crank_chain [0]) with (Some [degToRad 0]). rewrite zero_rad. unfold chain_fwd_kin, crank_chain. cbn [chain_fk].
  change (is_fixed _) with false. cbv iota. rewrite fmul_id_l, seg_pose0. cbn [option_map]. unfold frameToVector. cbn [fM fp]. rewrite GetRot_id. reflexivity.
Qed.

(** *** The pose, while the tool is taken off *)
Definition during : list turn := [Changer 0; Changer 0; Asker; Asker] ++ repeat (Changer 0) 6 ++ [Changer 0; Asker].
Lemma zero_pose : answered (play false crank_chain during (begin crank_chain [[Restore]] (p_fwdKin [0]))) = Some (TTrue (frameToVector fid)).
Proof. reflexivity. Qed.
Lemma restore_same n : alone no_ik light (after crank_solver [Restore] n) (FwdKin [0]) = TTrue [1; 0; 0; 0; 0; 0].
Proof. destruct n as [|[|n]]; unfold alone; cbn [after firstn fold_left change sv_chain sv_original crank_solver sv_ik]; [rewrite crank_at; reflexivity| |]; change (Sv crank_chain crank_chain _) with crank_solver; rewrite crank_at; reflexivity. Qed.
Theorem pose_refuted : exists ik k s threads x ts w p, sized ik k /\ own_joints s /\
  w = play false (sv_original s) ts (begin (sv_chain s) threads (code ik k x)) /\ (exists q, x = FwdKin q) /\ answered w = Some (TTrue p) /\
  ~ at_an_instant ik k s x (begin (sv_chain s) threads (code ik k x)) w (TTrue p).
Proof.
  exists no_ik, light, crank_solver, [[Restore]], (FwdKin [0]), during. eexists. exists (frameToVector fid).
  split; [exact light_sized|]. split; [reflexivity|]. split; [reflexivity|]. split; [eexists; reflexivity|]. split; [exact zero_pose|].
  intros (n & _ & E). change (begun _) with [Restore] in E. rewrite restore_same, frame_zero in E. injection E as E. cbn in E. lra.
Qed.
(** ... and undefined for the standard of the language *)
Theorem undefined_refuted : exists ik k s threads x ts w, sized ik k /\ own_joints s /\
  w = play true (sv_original s) ts (begin (sv_chain s) threads (code ik k x)) /\ kinematic x /\ answered w = Some TUndef /\
  ~ at_an_instant ik k s x (begin (sv_chain s) threads (code ik k x)) w TUndef.
Proof.
  exists no_ik, light, crank_solver, [[Restore]], (FwdKin [0]), [Changer 0; Asker]. eexists.
  split; [exact light_sized|]. split; [reflexivity|]. split; [reflexivity|]. split; [exact I|]. split; [reflexivity|].
  intros (n & _ & E). change (begun _) with [Restore] in E. rewrite restore_same in E. discriminate.
Qed.

(** *** Gravity, while a tool is added *)
Definition plain : list R := [0; 0; 0; 0; 0; 0].
Lemma plain_frame : vectorToFrame plain = fid.
Proof. unfold plain. rewrite target_frame. reflexivity. Qed.
(** torques of the crank with a tool *)
Definition tooled (h : frame) : chain := [mk_segment (J JRotZ 1 0 vzero vzero) (ftrans (V 1 0 0)); mk_segment fixed_joint h].
Lemma crank_twist xd : segment_twist (mk_segment (J JRotZ 1 0 vzero vzero) (ftrans (V 1 0 0))) 0 xd = Tw (V 0 xd 0) (V 0 0 xd).
Proof.
  assert (P : joint_pose (J JRotZ 1 0 vzero vzero) 0 = fid) by (unfold joint_pose; cbn [j_type j_scale j_offset]; replace (1 * 0 + 0) with 0 by ring; rewrite RotZ_Rot2, Rot2_zero; reflexivity).
  unfold segment_twist, mk_segment. cbn [s_joint s_tip]. rewrite P. rewrite finv_fid, fmul_id_l. unfold joint_twist. cbn [j_type j_scale]. apply (f_equal2 Tw); apply vec_eq; cbn; ring.
Qed.
Lemma tool_pose h x : segment_pose (mk_segment fixed_joint h) x = h.
Proof. unfold segment_pose, mk_segment. cbn [s_joint s_tip]. change (joint_pose fixed_joint 0) with fid. change (joint_pose fixed_joint x) with fid. rewrite finv_fid, !fmul_id_l. reflexivity. Qed.
Lemma tool_twist h x xd : segment_twist (mk_segment fixed_joint h) x xd = twist_zero.
Proof. unfold segment_twist. cbn [joint_twist mk_segment s_joint fixed_joint j_type]. unfold twist_zero, vzero. apply (f_equal2 Tw); cbn; [|reflexivity]. apply vec_eq; cbn; ring. Qed.
Local Ltac comps := unfold tadd, tscale, tcross, ftwist_inv, Tree.trot, twist_zero, fid, vneg, vzero; cbn [fM fp t_vel t_rot]; apply (f_equal2 Tw); apply vec_eq; cbn; ring.
Lemma tooled_rne m f : rne vzero [] (tooled (F m vzero)) [0] [0] [0] [wrench_zero; Wr f vzero] = Some [- vy (mv m f)].
Proof.
  unfold rne. change (Nat.eqb _ _) with true. cbv iota.
  change (loaded _ _ _) with [(mk_segment (J JRotZ 1 0 vzero vzero) (ftrans (V 1 0 0)), inertia_zero, wrench_zero); (mk_segment fixed_joint (F m vzero), inertia_zero, Wr f vzero)].
  erewrite pass_moving with (v' := twist_zero) (a' := twist_zero); [| reflexivity | rewrite seg_pose0, crank_twist; comps | rewrite seg_pose0, !crank_twist; comps |].
  2: { eapply pass_fixed with (v' := twist_zero) (a' := twist_zero); [reflexivity | rewrite tool_pose, tool_twist; comps | rewrite tool_pose, !tool_twist; comps |]. reflexivity. }
  cbn [option_map snd]. rewrite seg_pose0, crank_twist, tool_pose.
  match goal with |- Some [?x] = Some [?y] => assert (E : x = y); [|rewrite E; reflexivity] end.
  destruct f as [f1 f2 f3], m as [m11 m12 m13 m21 m22 m23 m31 m32 m33]. cbv -[Rplus Rmult Rminus Ropp Rinv Rdiv IZR]. field.
Qed.
Lemma crank_rne f : rne vzero [] crank_chain [0] [0] [0] [Wr f vzero] = Some [- vy f].
Proof.
  unfold rne. change (Nat.eqb _ _) with true. cbv iota.
  change (loaded _ _ _) with [(mk_segment (J JRotZ 1 0 vzero vzero) (ftrans (V 1 0 0)), inertia_zero, Wr f vzero)].
  erewrite pass_moving with (v' := twist_zero) (a' := twist_zero); [| reflexivity | rewrite seg_pose0, crank_twist; comps | rewrite seg_pose0, !crank_twist; comps |].
  2: { reflexivity. }
  cbn [option_map snd]. rewrite seg_pose0, crank_twist.
  match goal with |- Some [?x] = Some [?y] => assert (E : x = y); [|rewrite E; reflexivity] end.
  destruct f as [f1 f2 f3]. cbv -[Rplus Rmult Rminus Ropp Rinv Rdiv IZR]. field.
Qed.

Definition torque_0 : tresult := TTrue [- 0].
Lemma gravity_still n : exists t, alone no_ik light (after crank_solver [Append plain] n) (Gravity [0]) = TTrue t.
Proof.
  assert (E0 : gravityDyn light crank_solver [0] = TTrue [- vy vzero]).
  { unfold gravityDyn. cbn [sv_chain crank_solver]. change (joints_in crank_chain [0]) with (Some [degToRad 0]). rewrite zero_rad. cbv zeta. cbn [light dyn_solvers c_dyn].
    change (repeat wrench_zero (length crank_chain)) with [Wr vzero vzero]. change (repeat 0 (nr_of_joints crank_chain)) with [0]. rewrite crank_rne. reflexivity. }
  assert (E1 : gravityDyn light (Sv (tooled (F mid vzero)) crank_chain (sv_ik crank_solver)) [0] = TTrue [- vy (mv mid vzero)]).
  { unfold gravityDyn. cbn [sv_chain]. change (joints_in (tooled (F mid vzero)) [0]) with (Some [degToRad 0]). rewrite zero_rad. cbv zeta. cbn [light dyn_solvers c_dyn].
    change (repeat wrench_zero (length (tooled (F mid vzero)))) with [wrench_zero; Wr vzero vzero]. change (repeat 0 (nr_of_joints (tooled (F mid vzero)))) with [0]. rewrite tooled_rne. reflexivity. }
  destruct n as [|n].
  - eexists. exact E0.
  - replace (after crank_solver [Append plain] (Datatypes.S n)) with (Sv (tooled (F mid vzero)) crank_chain (sv_ik crank_solver)); [eexists; exact E1|].
    unfold after. destruct n; cbn [firstn fold_left change]; rewrite plain_frame; reflexivity.
Qed.
(** the number of segments is read, then a tool is added *)
Definition late : list turn := repeat Asker 7 ++ repeat (Changer 0) 4 ++ [Asker].
Lemma gravity_false strict : answered (play strict crank_chain late (begin crank_chain [[Append plain]] (p_gravity light [0]))) = Some TFalse.
Proof. destruct strict; reflexivity. Qed.
Theorem gravity_refuted : exists ik k s threads x ts w, sized ik k /\ own_joints s /\ Forall (Forall adds) threads /\
  w = play true (sv_original s) ts (begin (sv_chain s) threads (code ik k x)) /\ (exists q, x = Gravity q) /\ answered w = Some TFalse /\
  ~ at_an_instant ik k s x (begin (sv_chain s) threads (code ik k x)) w TFalse.
Proof.
  exists no_ik, light, crank_solver, [[Append plain]], (Gravity [0]), late. eexists.
  split; [exact light_sized|]. split; [reflexivity|]. split; [repeat constructor|]. split; [reflexivity|]. split; [eexists; reflexivity|]. split; [exact (gravity_false true)|].
  intros (n & _ & E). change (begun _) with [Append plain] in E. destruct (gravity_still n) as (t & G). rewrite G in E. discriminate.
Qed.

(** *** Forces, while a tool is put in the place of another, which was turned *)
Definition turned : list R := [0; 0; 0; 0; 0; PI].
Definition half_turn : mat := M (-1) 0 0 0 (-1) 0 0 0 1.
Lemma turned_frame : vectorToFrame turned = F half_turn vzero.
Proof.
  pose proof PI_RGT_0 as P. unfold vectorToFrame, turned. apply (f_equal2 F); [|reflexivity]. unfold Rot.
  assert (N : norm (V 0 0 PI) = PI) by (unfold norm, dot; cbn; replace (0 * 0 + 0 * 0 + PI * PI) with (PI²) by (unfold Rsqr; ring); apply sqrt_Rsqr; lra).
  rewrite N. assert (normalize (V 0 0 PI) = V 0 0 1) as ->.
  { unfold normalize. rewrite N. destruct (Rltb PI kdl_eps) eqn:L.
    - exfalso. unfold Rltb in L. destruct (Rlt_dec PI kdl_eps) as [H|]; [|discriminate]. unfold kdl_eps in H. pose proof PI2_1. lra.
    - apply vec_eq; cbn; field; lra. }
  unfold Rot2, half_turn. cbn zeta. rewrite cos_PI, sin_PI. apply mat_eq; cbn; ring.
Qed.
Definition push : list R := [0; 1; 0; 0; 0; 0].
Definition turned_solver : solver := Sv (crank_chain ++ [mk_segment fixed_joint (vectorToFrame turned)]) crank_chain (sv_ik crank_solver).
Definition swap : list tool_op := [Restore; Append plain].
Definition pushing : query := InvDyn [0] [0] [0] push BASE_FRAME.
Lemma tooled_fk m : chain_fwd_kin (tooled (F m vzero)) [0] = Some (F m (V 1 0 0)).
Proof.
  unfold chain_fwd_kin, tooled. cbn [chain_fk]. change (is_fixed (s_joint (mk_segment fixed_joint (F m vzero)))) with true. change (is_fixed (s_joint (mk_segment (J JRotZ 1 0 vzero vzero) (ftrans (V 1 0 0))))) with false.
  cbv iota. rewrite fmul_id_l, seg_pose0, tool_pose. unfold fmul, fapp. cbn [fM fp]. rewrite mm_id_l, mv_id. do 2 f_equal. apply vec_eq; cbn; ring.
Qed.
Lemma crank_fk : chain_fwd_kin crank_chain [0] = Some (F mid (V 1 0 0)).
Proof. unfold chain_fwd_kin, crank_chain. cbn [chain_fk]. change (is_fixed _) with false. cbv iota. rewrite fmul_id_l, seg_pose0. reflexivity. Qed.
Lemma push_wrench m : wrot m (vectorToWrench push) = Wr (mv m (V 0 1 0)) vzero.
Proof. unfold wrot, vectorToWrench, push. cbn [w_force w_torque]. apply (f_equal2 Wr); [reflexivity|]. apply vec_eq; cbn; ring. Qed.
Lemma tooled_push m k0 : mm m (mT m) = mid -> invDyn light (Sv (tooled (F m vzero)) crank_chain k0) [0] [0] [0] push BASE_FRAME = TTrue [- vy (V 0 1 0)].
Proof.
  intros O. unfold invDyn. cbn [sv_chain]. change (joints_in (tooled (F m vzero)) [0]) with (Some [degToRad 0]). rewrite zero_rad, tooled_fk. cbn [option_map fM].
  change (length (tooled (F m vzero))) with 2%nat. cbv iota beta. change (repeat wrench_zero 1) with [wrench_zero]. cbn [app light dyn_solvers c_dyn]. rewrite push_wrench, tooled_rne. do 3 f_equal.
  rewrite <- mv_mm, O, mv_id. reflexivity.
Qed.
Lemma crank_push : invDyn light crank_solver [0] [0] [0] push BASE_FRAME = TTrue [- vy (V 0 1 0)].
Proof.
  unfold invDyn. cbn [sv_chain crank_solver]. change (joints_in crank_chain [0]) with (Some [degToRad 0]). rewrite zero_rad, crank_fk. cbn [option_map fM].
  change (length crank_chain) with 1%nat. cbv iota beta. change (repeat wrench_zero 0) with (@nil wrench). cbn [app light dyn_solvers c_dyn]. rewrite push_wrench, crank_rne.
  replace (mv (mT mid) (V 0 1 0)) with (V 0 1 0) by (apply vec_eq; cbn; ring). reflexivity.
Qed.
Lemma pushed_alone n : alone no_ik light (after turned_solver swap n) pushing = TTrue [- vy (V 0 1 0)].
Proof.
  unfold pushing, alone, turned_solver, swap. rewrite turned_frame. unfold after. destruct n as [|[|n]].
  - cbn [firstn fold_left]. apply tooled_push. unfold half_turn. apply mat_eq; cbn; ring.
  - cbn [firstn fold_left change sv_original]. exact crank_push.
  - cbn [firstn]. rewrite firstn_nil. cbn [fold_left change sv_original sv_chain sv_ik]. rewrite plain_frame. apply tooled_push. apply mat_eq; cbn; ring.
Qed.
Definition between : list turn := repeat Asker 11 ++ repeat (Changer 0) 12 ++ repeat Asker 5.
Lemma pushed_racing : answered (play true crank_chain between (begin (sv_chain turned_solver) [swap] (code no_ik light pushing))) = Some (TTrue [- vy (mv mid (mv (mT half_turn) (V 0 1 0)))]).
Proof.
  pose (c := crank_chain ++ [mk_segment fixed_joint (vectorToFrame plain)]).
  pose (w := [wrench_zero; wrot (mT (fM (jnt_to_cart (sv_chain turned_solver) [degToRad 0]))) (vectorToWrench push)]).
  change (answered (play true crank_chain between (begin (sv_chain turned_solver) [swap] (code no_ik light pushing)))) with
    (answered (play true crank_chain (repeat Asker 3) (W (at_rest c) None [[]] [(0%nat, Restore); (0%nat, Append plain)]
        (finish same (c_dyn light c [degToRad 0] [degToRad 0] [degToRad 0] w))))).
  assert (D : c_dyn light c [degToRad 0] [degToRad 0] [degToRad 0] w = Some [- vy (mv mid (mv (mT half_turn) (V 0 1 0)))]).
  { subst c w. rewrite zero_rad, plain_frame. cbn [sv_chain turned_solver]. rewrite turned_frame. change (crank_chain ++ [mk_segment fixed_joint (F half_turn vzero)]) with (tooled (F half_turn vzero)).
    unfold jnt_to_cart. rewrite tooled_fk. cbn [fM]. rewrite push_wrench. cbn [light dyn_solvers c_dyn]. change (crank_chain ++ [mk_segment fixed_joint fid]) with (tooled (F mid vzero)). apply tooled_rne. }
  rewrite D. reflexivity.
Qed.
Theorem forces_refuted : exists ik k s threads x ts w t, sized ik k /\ own_joints s /\
  w = play true (sv_original s) ts (begin (sv_chain s) threads (code ik k x)) /\ (exists q qd qdd f, x = InvDyn q qd qdd f BASE_FRAME) /\ answered w = Some (TTrue t) /\
  ~ at_an_instant ik k s x (begin (sv_chain s) threads (code ik k x)) w (TTrue t).
Proof.
  exists no_ik, light, turned_solver, [swap], pushing, between. eexists. eexists.
  split; [exact light_sized|]. split; [reflexivity|]. split; [reflexivity|]. split; [do 4 eexists; reflexivity|]. split; [exact pushed_racing|].
  intros (n & _ & E). change (begun _) with swap in E. rewrite pushed_alone in E. injection E as E. cbn in E. lra.
Qed.

(** *** A pose asked while two users add tools *)
Definition two : list (list tool_op) := [[Append plain]; [Append turned]].
Definition some_turns : list turn := [Asker; Asker; Changer 1; Changer 0; Changer 1; Asker; Asker; Changer 1; Changer 1; Asker; Changer 0].
Lemma asked_example : exists r, answered (play true crank_chain some_turns (begin crank_chain two (code no_ik light (FwdKin [0])))) = Some (TTrue r).
Proof. eexists. reflexivity. Qed.
Lemma two_example : let w := play true crank_chain (some_turns ++ repeat (Changer 0) 3) (begin crank_chain two (code no_ik light (FwdKin [0]))) in
  all_made w /\ begun w = [Append turned; Append plain].
Proof. split; [split; [reflexivity|]|reflexivity]. intros [|[|[|i]]]; reflexivity. Qed.
(** torques with a force on the tool, and a tool added meanwhile *)
Lemma quiet_example : exists r, answered (play true crank_chain (repeat Asker 13 ++ Changer 0 :: repeat Asker 3) (begin (sv_chain turned_solver) [[Append plain]] (code no_ik light pushing))) = Some (TTrue r).
Proof.
  pose (c := sv_chain turned_solver).
  pose (w := [wrench_zero; wrot (mT (fM (jnt_to_cart c [degToRad 0]))) (vectorToWrench push)]).
  assert (exists r, c_dyn light c [degToRad 0] [degToRad 0] [degToRad 0] w = Some [r]) as (r & D).
  { subst c w. rewrite zero_rad. cbn [sv_chain turned_solver]. rewrite turned_frame. change (crank_chain ++ [mk_segment fixed_joint (F half_turn vzero)]) with (tooled (F half_turn vzero)).
    unfold jnt_to_cart. rewrite tooled_fk. cbn [fM]. rewrite push_wrench. cbn [light dyn_solvers c_dyn]. eexists. apply tooled_rne. }
  exists [r].
  change (answered (play true crank_chain (repeat Asker 3) (play true crank_chain [Changer 0] (W (at_rest c) None [[Append plain]] [] (finish same (c_dyn light c [degToRad 0] [degToRad 0] [degToRad 0] w))))) = Some (TTrue [r])).
  rewrite D. reflexivity.
Qed.
Lemma asked_kinematic : sized no_ik light /\ Forall (Forall adds) two /\
  exists r, answered (play true crank_chain some_turns (begin crank_chain two (code no_ik light (FwdKin [0])))) = Some (TTrue r).
Proof. split; [exact light_sized|]. split; [repeat constructor|exact asked_example]. Qed.
Lemma asked_weight : sized no_ik light /\ Forall (Forall adds) [[Append plain]] /\ exists r, answered (play false crank_chain late (begin crank_chain [[Append plain]] (code no_ik light (Gravity [0])))) = Some r.
Proof. split; [exact light_sized|]. split; [repeat constructor|]. exists TFalse. exact (gravity_false false). Qed.
Lemma asked_forces : sized no_ik light /\ exists r, answered (play true crank_chain (repeat Asker 13 ++ Changer 0 :: repeat Asker 3) (begin (sv_chain turned_solver) [[Append plain]] (code no_ik light pushing))) = Some (TTrue r).
Proof. split; [exact light_sized|exact quiet_example]. Qed.
