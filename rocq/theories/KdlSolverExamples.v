(** The solver device on a crank: one rotary joint. *)
From Coq Require Import Reals Lra Lia List Bool Arith ZArith.
From Verif Require Import Kdl KdlFacts KdlRot KdlRotFacts Trig TrigFacts Screw ScrewFacts Subproblems IkProblem Selector Builder BuilderExamples BuilderExamples2 BuilderFacts3 SubproblemFacts4 KinRep KinRepSpec KinRepFacts KinRepFacts2 KinRepFacts3 KdlSolver KdlSolverFacts.
Import ListNotations.
Open Scope R_scope.
Local Notation S := Datatypes.S.

Definition crank_chain : chain := [mk_segment (J JRotZ 1 0 vzero vzero) (ftrans (V 1 0 0))].
Definition crank_sel : selector := new_selector [- PI] [PI].
Definition crank_solver : solver := Sv crank_chain crank_chain (StIk crank crank_steps false 0 crank_sel).

Lemma seg_pose0 : segment_pose (mk_segment (J JRotZ 1 0 vzero vzero) (ftrans (V 1 0 0))) 0 = F mid (V 1 0 0).
Proof.
  unfold segment_pose, mk_segment. cbn [s_joint s_tip].
  assert (P0 : joint_pose (J JRotZ 1 0 vzero vzero) 0 = fid).
  { unfold joint_pose. cbn [j_type j_scale j_offset]. replace (1 * 0 + 0) with 0 by ring. rewrite RotZ_Rot2, Rot2_zero. reflexivity. }
  rewrite P0, finv_fid, !fmul_id_l. reflexivity.
Qed.
Lemma crank_exp : append_exp (mk_poe fid) (mk_exp ROTATION (mv (fM fid) (V 0 0 1)) (fapp fid vzero)) fid = P [crank_axis] fid.
Proof.
  unfold append_exp, mk_poe, mk_exp, cloneWithBase, changeBase. cbn [exps tool app e_motion e_axis e_origin fM fid].
  rewrite !fapp_id, !mv_id, normalize_of_unit by apply unit_ez. reflexivity.
Qed.
Lemma crank_formula : fromChain crank_chain = crank.
Proof.
  unfold fromChain, crank_chain. cbn [fold_left]. unfold fromChain_step. cbn [s_joint mk_segment j_type jointTypeToMotionId joint_axis j_origin].
  rewrite crank_exp, fmul_id_l, seg_pose0. reflexivity.
Qed.
Definition back : list R := [-1; 0; 0; 0; 0; 0].
Lemma back_frame : vectorToFrame back = F mid (V (-1) 0 0).
Proof. unfold vectorToFrame, back. fold (rot_of (V 0 0 0)). change (V 0 0 0) with vzero. rewrite rot_of_zero. reflexivity. Qed.
Lemma spindle_formula : fromChain (crank_chain ++ [tool_segment back]) = spindle.
Proof.
  unfold fromChain, crank_chain. cbn [app fold_left]. unfold fromChain_step at 2. cbn [s_joint mk_segment j_type jointTypeToMotionId joint_axis j_origin].
  rewrite crank_exp, fmul_id_l, seg_pose0. unfold fromChain_step. cbn [s_joint tool_segment mk_segment fixed_joint j_type jointTypeToMotionId].
  fold fixed_joint. fold (tool_segment back). rewrite tool_segment_pose, back_frame.
  unfold spindle. cbn [exps]. f_equal. unfold fmul, fid. cbn [fM fp]. rewrite mm_id_l. f_equal. unfold fapp. cbn [fM fp]. rewrite mv_id.
  unfold vadd, vzero. cbn. f_equal; ring.
Qed.

Lemma crank_opens : forall k, sv_open (S (S (S k))) [/ 2] crank_chain crank_sel = Returns (Some crank_solver).
Proof. intros k. unfold sv_open, st_create. rewrite crank_formula, crank_built. reflexivity. Qed.

(** the answer for a target whose tool point is on the positive x axis *)
Lemma crank_solves : forall d, 0 < d -> ik_solve crank (map sub_step crank_steps) false (F mid (V d 0 0)) =
  Some (Equal 1 d, [[0]]).
Proof.
  intros d D.
  assert (V1 : st_solve (sub_step (SPK1 0 crank_axis (V 1 0 0))) (fmul (F mid (V d 0 0)) (finv (tool crank))) fid = Some (Equal 1 d, [[(0%nat, 0)]])).
  { cbn [sub_step st_solve pk1_step]. unfold pk1_solve. cbv zeta. rewrite fapp_id.
    assert (K : fapp (fmul (F mid (V d 0 0)) (finv (tool crank))) (V 1 0 0) = V d 0 0).
    { unfold fmul, finv, fapp, crank. cbn [tool fM fp]. rewrite mT_id, mm_id_l, !mv_id. unfold vadd, vneg. cbn. f_equal; ring. }
    rewrite K. unfold crank_axis. cbn [e_axis e_origin].
    replace (vsub (V 1 0 0) vzero) with (V 1 0 0) by (unfold vsub, vadd, vneg, vzero; cbn; f_equal; ring).
    replace (vsub (V d 0 0) vzero) with (V d 0 0) by (unfold vsub, vadd, vneg, vzero; cbn; f_equal; ring).
    assert (W : forall x, mv (vectorPow2 (V 0 0 1)) (V x 0 0) = vzero) by (intros; unfold vectorPow2, mv, vzero; cbn; f_equal; ring).
    rewrite !W. assert (Z : forall v, vsub v vzero = v) by (intros []; unfold vsub, vadd, vneg, vzero; cbn; f_equal; ring). rewrite !Z.
    assert (N : forall x, 0 < x -> norm (V x 0 0) = x).
    { intros x X. unfold norm, dot. cbn. replace (x * x + 0 * 0 + 0 * 0) with (x * x) by ring. apply sqrt_square. lra. }
    rewrite !N by lra.
    assert (EV : EqualV vzero vzero = true) by (unfold EqualV, Equal, Rltb, kdl_eps; cbn; destruct (Rlt_dec _ _), (Rlt_dec _ _); try reflexivity; exfalso; lra).
    rewrite EV. cbn [andb].
    replace (dot (V 0 0 1) (cross (V 1 0 0) (V d 0 0))) with (d * sin 0) by (unfold dot, cross; cbn; rewrite sin_0; ring).
    replace (dot (V 1 0 0) (V d 0 0)) with (d * cos 0) by (unfold dot; cbn; rewrite cos_0; ring).
    rewrite atan2_unique by (pose proof PI_RGT_0; lra). rewrite normalizeAngle_id; [reflexivity|].
    rewrite Rabs_R0. unfold kdl_eps. pose proof PI2_1. lra. }
  unfold ik_solve, ik_init, crank_steps. cbn [map exps crank length repeat steps_loop]. change (P [crank_axis] (F mid (V 1 0 0))) with crank.
  unfold step_body. cbn [k_sols k_rhs k_terms k_reach length seq branch_loop]. unfold branch_body.
  cbn [k_sols k_rhs k_terms k_reach nth_error]. unfold transformPoint. cbn [length transform_loop nth_error].
  rewrite V1. reflexivity.
Qed.

Lemma crank_selects : forall q0, configure crank_sel [[0]] = Some (true, Sel [- PI] [PI] [Cfg [0] true] None None) /\
  find_least (Sel [- PI] [PI] [Cfg [0] true] None None) [q0] = Some (true, Sel [- PI] [PI] [Cfg [0] true] (Some (Cfg [0] true)) (Some 0%nat)).
Proof.
  intros q0. split; [|reflexivity]. unfold configure, crank_sel, new_selector. cbn [s_min s_max build_configs validate].
  replace (checkJointInLimits 0 (- PI) PI) with true; [reflexivity|]. symmetry. unfold checkJointInLimits, Rleb, kdl_eps. pose proof PI_RGT_0.
  destruct (Rle_dec _ _), (Rle_dec _ _); try reflexivity; exfalso; lra.
Qed.

Lemma target_frame : forall d, vectorToFrame [d; 0; 0; 0; 0; 0] = F mid (V d 0 0).
Proof. intros d. unfold vectorToFrame. fold (rot_of (V 0 0 0)). change (V 0 0 0) with vzero. rewrite rot_of_zero. reflexivity. Qed.
Lemma crank_inverse : forall d q0, 0 < d -> exists s', invKin find_least crank_solver [d; 0; 0; 0; 0; 0] [q0] BASE_FRAME = Some (Some [radToDeg 0], s').
Proof.
  intros d q0 D. unfold invKin. cbn [sv_chain crank_solver]. unfold joints_in. change (nr_of_joints crank_chain) with 1%nat.
  cbn [length Nat.leb firstn map]. rewrite target_frame. unfold cart_to_jnt. cbn [sv_ik crank_solver ik_error ik_poe ik_steps ik_rev ik_sel Z.eqb E_SOLUTION_NOT_FOUND].
  rewrite crank_solves by exact D. rewrite (proj1 (crank_selects 0)), (proj2 (crank_selects _)). cbn [retrievePose s_optimal c_q].
  destruct (Equal 1 d); cbn; eauto.
Qed.

(** a tool is appended and removed: the inverse kinematics is lost *)
Theorem crank_lost : exists fuel dr0 c sel s xd q q' s' x dr1 s1 dr2 s2,
  sv_open fuel dr0 c sel = Returns (Some s) /\
  invKin find_least s xd q BASE_FRAME = Some (Some q', s') /\
  appendLink fuel dr1 x s = Returns s1 /\ restoreOriginalChain fuel dr2 s1 = Returns s2 /\
  forall find xd q fr r s3, invKin find s2 xd q fr = Some (r, s3) -> r = None.
Proof.
  destruct spindle_null_from as (n & NULL). destruct (crank_inverse 1 0 Rlt_0_1) as (s' & I).
  set (fuel := S (S (S n))).
  assert (A : appendLink fuel [/ 2; / 2] back crank_solver = Returns (Sv (crank_chain ++ [tool_segment back]) crank_chain (set_error (sv_ik crank_solver) E_SOLUTION_NOT_FOUND))).
  { unfold appendLink, st_update. fold (tool_segment back). cbn [sv_chain crank_solver]. rewrite spindle_formula, (NULL fuel) by (unfold fuel; lia). reflexivity. }
  assert (R2 : exists s2, restoreOriginalChain fuel [/ 2] (Sv (crank_chain ++ [tool_segment back]) crank_chain (set_error (sv_ik crank_solver) E_SOLUTION_NOT_FOUND)) = Returns s2 /\ ik_error (sv_ik s2) = E_SOLUTION_NOT_FOUND).
  { unfold restoreOriginalChain, st_update. cbn [sv_original]. rewrite crank_formula. unfold fuel. rewrite crank_built. eexists. split; reflexivity. }
  destruct R2 as (s2 & R2 & E2).
  exists fuel, [/ 2], crank_chain, crank_sel, crank_solver, [1; 0; 0; 0; 0; 0], [0], [radToDeg 0], s', back, [/ 2; / 2], (Sv (crank_chain ++ [tool_segment back]) crank_chain (set_error (sv_ik crank_solver) E_SOLUTION_NOT_FOUND)), [/ 2], s2.
  split; [apply crank_opens|]. split; [exact I|]. split; [exact A|]. split; [exact R2|].
  intros find xd q fr r s3 H. destruct (stuck_inv find s2 xd q fr E2) as [X|(s4 & X)]; congruence.
Qed.

(** success is reported for a pose that is out of reach *)
Theorem crank_unreached : exists s xd q q' s' x',
  (exists fuel dr c sel, sv_open fuel dr c sel = Returns (Some s)) /\
  invKin find_least s xd q BASE_FRAME = Some (Some q', s') /\ fwdKin s q' = Some x' /\
  fp (vectorToFrame x') <> fp (vectorToFrame xd).
Proof.
  destruct (crank_inverse 5 0 ltac:(lra)) as (s' & I).
  assert (FK : fwdKin crank_solver [radToDeg 0] = Some (frameToVector (F mid (V 1 0 0)))).
  { unfold fwdKin, joints_in. cbn [sv_chain crank_solver]. change (nr_of_joints crank_chain) with 1%nat. cbn [length Nat.leb firstn map].
    replace (degToRad (radToDeg 0)) with 0 by (unfold degToRad, radToDeg; field; apply PI_neq0).
    unfold chain_fwd_kin, crank_chain. cbn [chain_fk]. change (is_fixed (s_joint (mk_segment (J JRotZ 1 0 vzero vzero) (ftrans (V 1 0 0))))) with false. cbv iota.
    rewrite seg_pose0, fmul_id_l. reflexivity. }
  exists crank_solver, [5; 0; 0; 0; 0; 0], [0], [radToDeg 0], s', (frameToVector (F mid (V 1 0 0))).
  split; [exists 3%nat, [/ 2], crank_chain, crank_sel; apply crank_opens|]. split; [exact I|]. split; [exact FK|].
  unfold frameToVector. cbn [fM fp]. rewrite GetRot_id. cbn. intro X. injection X. lra.
Qed.

(** ** The one-step solver *)
Definition crank_id : id_ik := IdIk 1 [- PI] [PI].
Definition column : list R := [0; 1; 0; 0; 0; 1].
Definition crank_jac (c : chain) (q : list R) : option (list (list R)) := Some (repeat column (nr_of_joints c)).
Lemma crank_columns : columns_ok crank_jac /\ forall c q cols, crank_jac c q = Some cols -> six cols.
Proof.
  split; intros c q cols [= <-]; [apply repeat_length|]. unfold six. apply Forall_forall. intros x I. apply repeat_spec in I. now subst x.
Qed.
Lemma crank_at_zero : chain_fwd_kin crank_chain [0] = Some (F mid (V 1 0 0)).
Proof.
  unfold chain_fwd_kin, crank_chain. cbn [chain_fk]. change (is_fixed (s_joint (mk_segment (J JRotZ 1 0 vzero vzero) (ftrans (V 1 0 0))))) with false. cbv iota.
  rewrite seg_pose0, fmul_id_l. reflexivity.
Qed.
Lemma crank_id_ok : forall p, exists q, id_cart_to_jnt crank_jac crank_id crank_chain [0] p [Some 0] = (E_NOERROR, q).
Proof.
  intros p. unfold id_cart_to_jnt. change (nr_of_joints crank_chain) with 1%nat. cbn [crank_id id_nj id_min id_max length Nat.eqb negb orb].
  rewrite crank_at_zero. cbn [crank_jac]. eauto.
Qed.
Theorem at_target_nan : exists jac k c qi p q,
  columns_ok jac /\ chain_fwd_kin c qi = Some p /\ rigid p /\ length qi = nr_of_joints c /\
  id_cart_to_jnt jac k c qi p (map Some qi) = (E_NOERROR, q) /\ q = map (fun _ => None) qi /\ q <> map Some qi.
Proof.
  destruct (crank_id_ok (F mid (V 1 0 0))) as (q & H).
  exists crank_jac, crank_id, crank_chain, [0], (F mid (V 1 0 0)), q.
  assert (Q : q = [None]).
  { apply (id_at_target crank_jac crank_id crank_chain [0] (F mid (V 1 0 0)) [Some 0] q).
    - apply crank_columns.
    - intros cols E. eapply (proj2 crank_columns); exact E.
    - exact crank_at_zero.
    - apply rot_id.
    - exact H. }
  subst q. split; [apply crank_columns|]. split; [exact crank_at_zero|]. split; [apply rot_id|]. split; [reflexivity|].
  split; [exact H|]. split; [reflexivity|discriminate].
Qed.

(** ** Instances of the hypotheses *)
Lemma crank_loses_from : exists n, forall fuel, (n <= fuel)%nat ->
  build fuel [/ 2; / 2] (fromChain (crank_chain ++ [tool_segment back])) = Returns None.
Proof. rewrite spindle_formula. exact spindle_null_from. Qed.
Lemma crank_loses : exists fuel s1,
  build fuel [/ 2; / 2] (fromChain (sv_chain crank_solver ++ [mk_segment fixed_joint (vectorToFrame back)])) = Returns None /\
  appendLink fuel [/ 2; / 2] back crank_solver = Returns s1.
Proof.
  destruct crank_loses_from as (n & H). exists n. fold (tool_segment back). cbn [sv_chain crank_solver]. unfold appendLink, st_update.
  fold (tool_segment back). cbn [sv_chain crank_solver]. rewrite (H n (le_n n)). eauto.
Qed.
Lemma crank_history : exists fuel s1 s2, sv_chain crank_solver = sv_original crank_solver /\
  tool_run fuel crank_solver [(Append back, [/ 2; / 2])] = Returns s1 /\ restoreOriginalChain fuel [/ 2] s1 = Returns s2.
Proof.
  destruct crank_loses_from as (n & H). set (fuel := S (S (S n))). exists fuel. cbn [tool_run tool_step fst snd].
  unfold appendLink, st_update. fold (tool_segment back). cbn [sv_chain crank_solver]. rewrite (H fuel) by (unfold fuel; lia).
  eexists. eexists. split; [reflexivity|]. split; [reflexivity|].
  unfold restoreOriginalChain, st_update. cbn [sv_original crank_solver]. rewrite crank_formula. unfold fuel. rewrite crank_built. reflexivity.
Qed.
Lemma crank_reopened : forall k, sv_open (S (S (S k))) [/ 2] crank_chain crank_sel = Returns (Some crank_solver) /\
  tool_run (S (S (S k))) crank_solver [(Restore, [/ 2])] = Returns crank_solver /\ ik_error (sv_ik crank_solver) <> E_SOLUTION_NOT_FOUND.
Proof.
  intros k. split; [apply crank_opens|]. split; [|discriminate]. cbn [tool_run tool_step fst snd]. unfold restoreOriginalChain, st_update.
  cbn [sv_original crank_solver]. rewrite crank_formula, crank_built. reflexivity.
Qed.
Lemma best_example : computeDiffInvKin [[1; 0; 0; 0; 0; 0]] [3; 4; 0; 0; 0; 0] = map Some [3].
Proof.
  unfold computeDiffInvKin.
  assert (JT : jacT [[1; 0; 0; 0; 0; 0]] [3; 4; 0; 0; 0; 0] = [3]) by (unfold jacT, dot6; cbn; f_equal; ring).
  assert (JV : jacv [[1; 0; 0; 0; 0; 0]] [3] = [3; 0; 0; 0; 0; 0]) by (unfold jacv, add6; cbn; repeat (apply f_equal2; [ring|]); reflexivity).
  rewrite JT, JV.
  assert (F : fdiv (dot6 [3; 4; 0; 0; 0; 0] [3; 0; 0; 0; 0; 0]) (dot6 [3; 0; 0; 0; 0; 0] [3; 0; 0; 0; 0; 0]) = Some 1).
  { unfold dot6. cbn. unfold fdiv. destruct (Reqb _ 0) eqn:R; [apply Reqb_true in R; lra|]. f_equal. field. }
  rewrite F. cbn. f_equal. f_equal. ring.
Qed.
Lemma origin_example : regular_log (fM (fmul (vectorToFrame [5; 0; 0; 0; 0; 0]) (vectorToFrame back))).
Proof. rewrite back_frame, target_frame. cbn [fmul fM]. rewrite mm_id_l. right. cbn. auto. Qed.
Lemma inverse_example : vectorToFrame [1; 0; 0; 0; 0; 0] = finv (vectorToFrame back).
Proof. rewrite back_frame, target_frame. unfold finv. cbn [fM fp]. rewrite mT_id, mv_id. f_equal. unfold vneg. cbn. f_equal; ring. Qed.
Lemma difference_example : regular_log (mm (mT (fM (vectorToFrame back))) (fM (vectorToFrame [0; 0; 0; 1; 0; 0]))).
Proof.
  rewrite back_frame. cbn [fM]. rewrite mT_id, mm_id_l. unfold vectorToFrame. cbn [fM]. fold (rot_of (V 1 0 0)).
  replace (V 1 0 0) with (vscale 1 (V 1 0 0)) by (unfold vscale; cbn; f_equal; ring).
  rewrite rot_of_scaled by (try apply unit_ex; unfold kdl_eps; lra).
  left. right. right. unfold Rot2. cbn. replace (- (sin 1 * 1) + (1 - cos 1) * 0 * 0 - (sin 1 * 1 + (1 - cos 1) * 0 * 0)) with (- (2 * sin 1)) by ring.
  rewrite Rabs_Ropp. pose proof (sin_gt_0 1 Rlt_0_1 ltac:(pose proof PI2_1; lra)) as S1. rewrite Rabs_pos_eq by lra.
  assert (B : 1 / 2 <= sin 1).
  { pose proof PI2_1. assert (PI / 6 < 1) by (pose proof PI_4; lra). rewrite <- sin_PI6. left. apply sin_increasing_1; lra. }
  unfold kdl_eps. lra.
Qed.
Lemma tool_frame_example : exists qr f, joints_in (sv_chain crank_solver) [0] = Some qr /\
  chain_fwd_kin (sv_chain crank_solver) qr = Some f /\ rigid f /\ regular_log (fM (fmul f (vectorToFrame back))).
Proof.
  exists [0], (F mid (V 1 0 0)). split; [unfold joints_in; cbn; unfold degToRad; f_equal; f_equal; ring|].
  split; [exact crank_at_zero|]. split; [apply rot_id|]. rewrite back_frame. cbn [fmul fM]. rewrite mm_id_l. right. cbn. auto.
Qed.
