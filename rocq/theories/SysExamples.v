(** The controller attached to the solver device of a six-axis arm, and to that of a crank: examples and counterexamples. *)
From Coq Require Import QArith Qreals Reals ZArith List Bool Lra Lia.
From Verif Require Import Kdl KdlFacts KdlRot KdlRotFacts KinRepSpec AsibotSpec KdlTraj LineSpec LineFacts LineFacts2 LineFacts3 KeyboardFacts7 Vocab Bcc BccSpec BccKdl BccLineSpec
  BccCmdSpec BccFacts BccFacts2 BccFacts5 BccExamples BccLineFacts2 BccLineFacts3 BccLineExamples BccLineExamples2 BccCmdExamples Sys SysSpec SysFacts SysFacts2 SysFacts3.
From Verif Require Screw ScrewFacts Selector Builder BuilderExamples BuilderExamples2 KinRep KdlSolver KdlSolverExamples KdlSolverFacts KinRepFacts3 Tree TreeSpec TreeFacts5 IkPoseSpec IkPoseExamples SolverLoopSpec SolverLoopFacts SolverLoopExamples.
Import ListNotations.
Open Scope R_scope.
Local Notation S := Datatypes.S.
Local Notation length := List.length.
Local Notation sv_chain := KdlSolver.sv_chain.
Local Notation xs := SolverLoopExamples.xs.
Local Notation xc := SolverLoopExamples.xc.
Local Notation xt := IkPoseExamples.xt.
Local Notation on_line := BccLineSpec.on_line.

(** ** The arm *)
Definition home : list R := repeat 0 6.
Definition arm : cfg := Cfg 6 false false false (repeat (-400) 6) (repeat 400 6) (repeat (-1000) 6) (repeat 1000 6) (repeat 10 6).
Definition arm_direct : cfg := Cfg 6 true false false (repeat (-400) 6) (repeat 400 6) (repeat (-1000) 6) (repeat 1000 6) (repeat 10 6).
Lemma arm_complete : complete arm. Proof. repeat split. Qed.

(** a velocity solver that only knows how to spin the last joint *)
Definition spin_last (x : KdlRot.twist) : option (list R) :=
  match TreeFacts5.spinning x with Some [w] => Some [0; 0; 0; 0; 0; w] | _ => None end.
Definition dev : device := Dev Selector.find_least (Tree.Cks (fun _ _ x => spin_last x) (fun _ _ _ _ _ => None)) 1000.
Lemma dev_opened : opened dev xc [] xs.
Proof. exists (map Q2R IkPoseExamples.x_draws), (Selector.new_selector (map Ropp SolverLoopExamples.xlimits) SolverLoopExamples.xlimits), xs. split; [exact SolverLoopExamples.xs_open|constructor]. Qed.
Lemma dev_strategy : KdlSolverFacts.strategy (dev_find dev). Proof. left. reflexivity. Qed.
Lemma dev_one : one_per_joint dev xs.
Proof. intros q t w. cbn. unfold spin_last. destruct (TreeFacts5.spinning t) as [[|u [|? ?]]|]; intros [= <-]. reflexivity. Qed.

(** the last joint turns the tool about its own axis *)
Definition turned_tool (t : R) : frame := F (RotZ t) (V 1 0 0).
Lemma link_0 t v : In t [JRotX; JRotY; JRotZ] -> segment_pose (SolverLoopExamples.link t v) 0 = ftrans v.
Proof.
  intros I. unfold segment_pose, SolverLoopExamples.link, mk_segment. cbn [s_joint s_tip]. rewrite !SolverLoopExamples.axis_rigid by exact I.
  rewrite finv_id, !fmul_id_l. reflexivity.
Qed.
Lemma link_last t : segment_pose (SolverLoopExamples.link JRotZ (V 0 0 (-1))) t = F (RotZ t) (V 0 0 (-1)).
Proof.
  unfold segment_pose, SolverLoopExamples.link, mk_segment. cbn [s_joint s_tip]. rewrite (SolverLoopExamples.axis_rigid JRotZ) by (cbn; auto). rewrite finv_id, fmul_id_l.
  unfold joint_pose. cbn [j_type j_scale j_offset]. replace (1 * t + 0) with t by ring. unfold fmul, ftrans. f_equal; [apply mat_eq; cbn; ring|apply vec_eq; cbn; ring].
Qed.
Lemma trans_trans a b : fmul (ftrans a) (ftrans b) = ftrans (vadd a b).
Proof. unfold fmul, ftrans, fapp. cbn [fM fp]. rewrite mm_id_l, mv_id. f_equal. apply vec_eq; cbn; ring. Qed.
Lemma arm_fk t : chain_fwd_kin xc [0; 0; 0; 0; 0; t] = Some (turned_tool t).
Proof.
  unfold chain_fwd_kin, xc, SolverLoopExamples.xc. cbn [chain_fk]. change (is_fixed (s_joint (SolverLoopExamples.link JRotX _))) with false.
  repeat match goal with |- context [is_fixed (s_joint (SolverLoopExamples.link ?j ?v))] => change (is_fixed (s_joint (SolverLoopExamples.link j v))) with false end. cbv iota.
  rewrite !link_0 by (cbn; auto). rewrite link_last, fmul_id_l, !trans_trans. f_equal. unfold turned_tool, fmul, ftrans, fapp. cbn [fM fp]. rewrite mm_id_l, mv_id. f_equal. apply vec_eq; cbn; ring.
Qed.
Lemma rad_0 : KinRep.degToRad 0 = 0. Proof. unfold KinRep.degToRad. ring. Qed.
Lemma deg_0 : KinRep.radToDeg 0 = 0. Proof. unfold KinRep.radToDeg. field. apply PI_neq0. Qed.
Lemma arm_stands t : stands xs [0; 0; 0; 0; 0; t] (turned_tool (KinRep.degToRad t)).
Proof. unfold stands. cbn [map]. rewrite !rad_0. apply arm_fk. Qed.
Lemma arm_faithful t : TreeSpec.faithful_chain (dev_kdl dev) xs [0; 0; 0; 0; 0; t].
Proof.
  unfold TreeSpec.faithful_chain. intros x v E. cbn [dev dev_kdl Tree.c_vel] in E. unfold spin_last in E.
  destruct (TreeFacts5.spinning x) as [u|] eqn:SP; [|discriminate]. apply TreeFacts5.spinning_spec in SP. destruct SP as (w & -> & ->). injection E as <-. split; [reflexivity|].
  intros p P. assert (X : p = fun u => turned_tool (KinRep.degToRad t + u * w)).
  { apply FunctionalExtensionality.functional_extensionality. intro u. specialize (P u). cbn [sv_chain xs SolverLoopExamples.xs] in P.
    change (nr_of_joints xc) with 6%nat in P. cbn [firstn map] in P. rewrite !rad_0 in P. unfold TreeSpec.moving in P. cbn [combine map fst snd] in P.
    rewrite !Rmult_0_r, !Rplus_0_r in P. rewrite arm_fk in P. now injection P. }
  rewrite X. pose proof (TreeFacts5.spin_velocity (KinRep.degToRad t) w 0) as SV. unfold velocity_of in *. cbn in *. repeat split; try apply SV; auto.
  all: apply SV || (apply derivable_pt_lim_const).
Qed.

(** *** Where the tool is, and what the device answers *)
Lemma home_tool : turned_tool 0 = at_x 1.
Proof. unfold turned_tool, at_x. f_equal. apply TreeFacts5.RotZ_0. Qed.
Lemma home_vector : KinRep.frameToVector (turned_tool 0) = row 1.
Proof. rewrite home_tool. apply x_row. Qed.
Lemma xt_home : xt = at_x 1. Proof. reflexivity. Qed.
Definition facing (t : R) : list R := [1; 0; 0; 0; 0; t].
Lemma facing_vector t : 1 / 100 <= t <= 29 / 10 -> KinRep.frameToVector (turned_tool t) = facing t.
Proof.
  intros T. unfold KinRep.frameToVector, turned_tool, facing. cbn [fM fp]. rewrite RotZ_Rot2, GetRot_Rot2; [unfold vscale; cbn; rewrite !Rmult_0_r, Rmult_1_r; reflexivity| | |now apply sin_floor].
  - unfold unit, dot; cbn; ring.
  - pose proof PI2_3_2. lra.
Qed.
Lemma fwd_home : KdlSolver.fwdKin xs home = Some (row 1).
Proof.
  unfold KdlSolver.fwdKin, KdlSolver.joints_in. cbn [sv_chain xs SolverLoopExamples.xs]. change (nr_of_joints xc) with 6%nat. cbn [home repeat length Nat.leb firstn map]. rewrite !rad_0, arm_fk.
  cbn [option_map]. now rewrite home_vector.
Qed.

Lemma inv_near g : length g = 6%nat -> exists qd s', KdlSolver.invKin Selector.find_least xs (row 1) g KdlSolver.BASE_FRAME = Some (Some qd, s') /\
  KdlSolver.ik_error (KdlSolver.sv_ik s') = KdlSolver.E_NOERROR /\ length qd = 6%nat /\ nth 0 qd 0 <= 181 /\ (g = home -> qd = home).
Proof.
  intros LG. pose proof PI_RGT_0 as PP. pose proof kdl_eps_pos as EP. rewrite <- x_row, <- xt_home.
  assert (WI : Selector.within (map Ropp SolverLoopExamples.xlimits) SolverLoopExamples.xlimits (map KinRep.degToRad home)).
  { unfold home. rewrite SolverLoopExamples.zeros_rad. split; [reflexivity|]. split; [reflexivity|].
    intros i x lo hi A B C. do 6 (destruct i as [|i]; [cbn in A, B, C; injection A as <-; injection B as <-; injection C as <-; lra|]). destruct i; discriminate. }
  assert (FK : chain_fwd_kin (sv_chain xs) (map KinRep.degToRad home) = Some xt).
  { rewrite xt_home, <- home_tool. unfold home. rewrite SolverLoopExamples.zeros_rad. apply arm_fk. }
  assert (RG : IkPoseSpec.regular (Screw.exps (KdlSolver.ik_poe (KdlSolver.sv_ik xs))) IkPoseExamples.xr IkPoseExamples.xw IkPoseExamples.xx (map KinRep.degToRad home)).
  { unfold home. rewrite SolverLoopExamples.zeros_rad. exact IkPoseExamples.x_home_regular. }
  assert (ER : forall qd s', KdlSolver.invKin Selector.find_least xs (KinRep.frameToVector xt) g KdlSolver.BASE_FRAME = Some (Some qd, s') -> KdlSolver.ik_error (KdlSolver.sv_ik s') = KdlSolver.E_NOERROR).
  { intros qd s' IV. destruct (SolverLoopFacts.inv_parts Selector.find_least xs _ _ KdlSolver.BASE_FRAME (KinRep.vectorToFrame (KinRep.frameToVector xt)) _ _ (or_introl eq_refl) eq_refl IV) as (_ & flag & cands & q & SV & _ & _ & ->).
    rewrite KinRepFacts3.frame_round_trip in SV; [|apply rigid_trans|right; cbn; auto].
    destruct IkPoseExamples.x_reachable as (cands' & SV' & _). cbn [KdlSolver.sv_ik xs SolverLoopExamples.xs KdlSolver.ik_poe KdlSolver.ik_steps KdlSolver.ik_rev] in SV. rewrite SV' in SV. assert (flag = true) as -> by congruence. reflexivity. }
  destruct (SolverLoopFacts.loop_near 1000 (map Q2R IkPoseExamples.x_draws) xc (map Ropp SolverLoopExamples.xlimits) SolverLoopExamples.xlimits xs xs [] IkPoseExamples.xr IkPoseExamples.xw IkPoseExamples.xx IkPoseExamples.xy
    SolverLoopExamples.xc_ok SolverLoopExamples.xs_open eq_refl ltac:(discriminate) SolverLoopExamples.xs_wrist home g xt WI LG RG FK ltac:(right; cbn; auto)) as (qd & s' & _ & IV & (W1 & W2 & W3) & DI).
  exists qd, s'. split; [exact IV|]. split; [exact (ER _ _ IV)|]. rewrite map_length in W1. split; [rewrite W1; reflexivity|]. split.
  - destruct qd as [|a qd]; [discriminate|]. cbn [nth]. destruct (W3 0%nat (KinRep.degToRad a) (- PI) PI eq_refl eq_refl eq_refl) as (_ & H). unfold KinRep.degToRad in H.
    assert (E8 : kdl_eps <= PI / 180) by (unfold kdl_eps in *; pose proof PI2_3_2; lra). apply Rmult_le_reg_r with (PI / 180); [lra|]. lra.
  - intros ->. destruct (SolverLoopFacts.loop_back 1000 (map Q2R IkPoseExamples.x_draws) xc (map Ropp SolverLoopExamples.xlimits) SolverLoopExamples.xlimits xs xs [] IkPoseExamples.xr IkPoseExamples.xw IkPoseExamples.xx IkPoseExamples.xy
      SolverLoopExamples.xc_ok SolverLoopExamples.xs_open eq_refl ltac:(discriminate) SolverLoopExamples.xs_wrist home xt WI RG FK ltac:(right; cbn; auto)) as (s2 & _ & IV2). congruence.
Qed.

(** ** A joint move: the first joint is found ten degrees beyond its limit *)
Definition beyond : list R := [190; 0; 0; 0; 0; 0].
Local Arguments computeIsocronousSpeeds : simpl never.
Definition to_home (q v : list R) : list event :=
  [(GetEncoders, give beyond); (InvKin (row 1) beyond BASE_FRAME, give q); (GetRefSpeeds, give (repeat 10 6)); (SetRefSpeeds v, yes);
   (GetControlModes, mode 6 VOCAB_CM_POSITION); (Sleep (1 / 10), yes); (GetControlModes, mode 6 VOCAB_CM_POSITION); (PositionMove q, yes)].
Example movj_arm : exists q v s' v', length (row 1) = 6%nat /\ exec (movj arm (row 1)) idle (to_home q v) (Done true) s' /\ through (unwarned dev) xs (to_home q v) v' /\
  motions (to_home q v) = [PositionMove q].
Proof.
  destruct (inv_near beyond eq_refl) as (qd & s' & IV & ER & LQ & HI & _).
  destruct (computeIsocronousSpeeds arm beyond qd) as [[v b]|] eqn:CI.
  2:{ exfalso. destruct (isochronous_total arm beyond qd) as (r & X); [reflexivity|reflexivity|rewrite LQ; cbn; lia|congruence]. }
  assert (b = true) as ->.
  { apply (proj2 (isochronous_speeds _ _ _ _ _ CI)). exists 0%nat. cbn. split; [lia|]. split; [lra|]. lra. }
  do 7 (destruct qd as [|? qd]; try discriminate).
  eexists _, v, _, s'. split; [reflexivity|]. split; [|split; [|reflexivity]].
  - unfold to_home. cbn. do 2 eexists. split; [reflexivity|]. cbn. do 2 eexists. split; [reflexivity|]. cbn. change [190; 0; 0; 0; 0; 0] with beyond. rewrite CI. ex.
  - unfold to_home. eapply through_cons; [split; [reflexivity|exact I]|]. eapply through_cons; [split; [|intros _; exact ER]|].
    + exists (Some [r; r0; r1; r2; r3; r4]). split; [exact IV|split; reflexivity].
    + repeat (eapply through_cons; [split; [reflexivity|exact I]|]). constructor.
Qed.

(** ** Streaming the pose where the arm is *)
Lemma arm_wide : wide arm.
Proof. intros j H. cbn in H. do 6 (destruct j as [|j]; [cbn; unfold margin; lra|]). lia. Qed.
Lemma in_six m t : in_mode 6 m ((GetControlModes, mode 6 m) :: t).
Proof. exists (mode 6 m), t. split; [reflexivity|]. split; [reflexivity|]. intros j H. do 6 (destruct j as [|j]; [reflexivity|]). lia. Qed.
Definition hold : list event :=
  [(GetControlModes, mode 6 VOCAB_CM_POSITION_DIRECT); (GetEncoders, give home); (InvKin (row 1) home BASE_FRAME, give home); (SetPositions home, yes)].
Example pose_arm : exists v', complete arm /\ wide arm /\ length (row 1) = 6%nat /\ exec (pose arm (row 1)) posing hold (Done tt) posing /\ through (unwarned dev) xs hold v' /\
  currentState posing = VOCAB_CC_NOT_CONTROLLING /\ In (streamingCommand posing) [VOCAB_CC_POSE; VOCAB_CC_MOVI] /\ in_mode (numJoints arm) VOCAB_CM_POSITION_DIRECT hold.
Proof.
  destruct (inv_near home eq_refl) as (qd & s' & IV & ER & _ & _ & Q). specialize (Q eq_refl). subst qd. exists s'.
  split; [exact arm_complete|]. split; [exact arm_wide|]. split; [reflexivity|]. split; [unfold hold, home; cbn [repeat]; ex|]. split; [|split; [reflexivity|]; split; [now left|apply in_six]].
  unfold hold. eapply through_cons; [split; [reflexivity|exact I]|]. eapply through_cons; [split; [reflexivity|exact I]|]. eapply through_cons; [split; [|intros _; exact ER]|].
  - exists (Some home). split; [exact IV|split; reflexivity].
  - eapply through_cons; [split; [reflexivity|exact I]|]. constructor.
Qed.

(** ** A turn of one radian about the axis of the tool, in ten seconds *)
Definition turn_one : traj := Line (row 1) (facing 1) 10.
Lemma unit_z : unit (V 0 0 1). Proof. unfold unit, dot; cbn; ring. Qed.
Lemma rot_facing t : kdl_eps <= t -> rot_of (V 0 0 t) = RotZ t.
Proof. intros T. rewrite RotZ_Rot2. replace (V 0 0 t) with (vscale t (V 0 0 1)) by (unfold vscale; cbn; f_equal; ring). now rewrite rot_of_scaled by (auto using unit_z). Qed.
Lemma pose_facing t : kdl_eps <= t -> pose_at (facing t) 0 = turned_tool t.
Proof. intros T. unfold pose_at, facing, turned_tool. cbn [nth Nat.mul Nat.add]. now rewrite rot_facing. Qed.
Lemma frame_facing t : kdl_eps <= t -> KinRep.vectorToFrame (facing t) = turned_tool t.
Proof. intros T. rewrite <- (pose_facing t T). reflexivity. Qed.
Lemma path_turn : path_line (at_x 1) (turned_tool 1) 1 = Path (at_x 1) (V 1 0 0) (V 0 0 1) 1 0 1.
Proof.
  unfold path_line, mk_path, at_x, turned_tool, vsub. cbn [fM fp vx vy vz]. rewrite Rminus_eq_0. replace (0 - 0) with 0 by ring. change (V 0 0 0) with vzero. rewrite norm_of_zero.
  assert (T1 : kdl_eps <= sin 1) by (apply sin_floor; lra). pose proof PI2_3_2. pose proof eps_small.
  replace (mm (mT mid) (RotZ 1)) with (Rot2 (V 0 0 1) 1) by (rewrite <- RotZ_Rot2, mT_id, mm_id_l; reflexivity). rewrite GetRotAngle_Rot2 by (auto using unit_z; lra). cbn [fst snd].
  replace (Rltb 0 kdl_eps) with true by (symmetry; apply Rltb_true; lra). rewrite (Reqb_of 1 0) by lra. replace (Rltb 0 (1 * 1)) with true by (symmetry; apply Rltb_true; lra). cbn [negb andb].
  f_equal; [|field|field|field]. unfold normalize. rewrite norm_of_zero. replace (Rltb 0 kdl_eps) with true by (symmetry; apply Rltb_true; lra). reflexivity.
Qed.
Lemma line_turn t : line_pos (at_x 1) (turned_tool 1) 10 t = option_map (fun p => turned_tool (trap_pos p t)) (trap_duration 10 10 0 1 10) /\
  line_vel (at_x 1) (turned_tool 1) 10 t = option_map (fun p => TreeFacts5.spin (trap_vel p t)) (trap_duration 10 10 0 1 10) /\
  line_seconds (at_x 1) (turned_tool 1) 10 = option_map tp_d (trap_duration 10 10 0 1 10).
Proof.
  unfold line_pos, line_vel, line_seconds, line_profile. rewrite path_turn. cbn [pt_len]. destruct (trap_duration 10 10 0 1 10) as [p|]; [|auto]. cbn [option_map]. split; [|split; [|reflexivity]]; f_equal.
  - unfold path_pos, turned_tool, at_x. cbn [pt_start pt_dir pt_axis pt_lin pt_rot fM fp]. rewrite mm_id_l, Rmult_1_r, <- RotZ_Rot2. f_equal. unfold vadd, vscale. cbn. f_equal; ring.
  - unfold path_vel, TreeFacts5.spin, at_x. cbn [pt_start pt_dir pt_axis pt_lin pt_rot fM fp]. rewrite mv_id. unfold vscale, vzero. cbn. f_equal; f_equal; ring.
Qed.
Lemma path_x : path_line (at_x 0) (at_x 1) 1 = Path (at_x 0) (V 1 0 0) (V 0 0 1) 1 1 0.
Proof.
  unfold path_line, mk_path, at_x, vsub. cbn [fM fp vx vy vz]. replace (1 - 0) with 1 by ring. replace (0 - 0) with 0 by ring. rewrite norm_x, normalize_x by lra.
  replace (mm (mT mid) mid) with mid by (unfold mm, mT, mid; cbn; f_equal; ring). rewrite GetRotAngle_id. cbn [fst snd].
  replace (Rltb 1 kdl_eps) with false by (symmetry; apply Rltb_false; pose proof eps_small; lra).
  replace (Reqb 0 0) with true by (symmetry; apply Reqb_true; reflexivity). cbn [negb andb]. rewrite Reqb_of by lra. cbn. f_equal. field.
Qed.
Lemma turn_values : exists p, trap_duration 10 10 0 1 10 = Some p /\ tp_d p = 10 /\ trap_pos p (100 - 100) = 0 /\ trap_pos p (105 - 100) = 1 / 2 /\ trap_vel p (105 - 100) = 1 / 5.
Proof.
  destruct (profile_1 10 ltac:(lra)) as (p & E & P1 & _ & P2 & P3 & _). pose proof q10_bounds. exists p. split; [exact E|]. split; [apply P1; lra|].
  split; [rewrite P2 by lra; field|]. split; [rewrite P3 by lra; field|]. pose proof vel_5 as V. unfold line_vel, line_profile in V. rewrite path_x in V. cbn [pt_len] in V. rewrite E in V. cbn in V.
  injection V as V _ _. lra.
Qed.
Lemma turn_kdl : as_kdl (TrajDuration turn_one, number 10) /\ as_kdl (TrajPos turn_one (100 - 100), give (row 1)) /\
  as_kdl (TrajPos turn_one (105 - 100), give (facing (1 / 2))) /\ as_kdl (TrajVel turn_one (105 - 100), give [0; 0; 0; 0; 0; 1 / 5]).
Proof.
  destruct turn_values as (p & E & P1 & P2 & P3 & P4). pose proof eps_small.
  assert (F : KinRep.vectorToFrame (row 1) = at_x 1 /\ KinRep.vectorToFrame (facing 1) = turned_tool 1) by (split; [apply row_pose|apply frame_facing; lra]). destruct F as (F1 & F2).
  split; [|split; [|split]]; cbn [as_kdl turn_one]; rewrite F1, F2; [intros T|intros h|intros h|intros w]; destruct (line_turn (100 - 100)) as (A1 & _ & A3); destruct (line_turn (105 - 100)) as (B1 & B2 & _).
  - rewrite A3, E. intros [= <-]. cbn. lra.
  - rewrite A1, E. intros [= <-]. now rewrite P2, home_vector.
  - rewrite B1, E. intros [= <-]. rewrite P3, facing_vector by lra. reflexivity.
  - rewrite B2, E. intros [= <-]. rewrite P4. reflexivity.
Qed.
Lemma off_turn t : 1 / 100 <= t <= 29 / 10 -> regular_log (RotZ t).
Proof.
  intros T. left. left. cbn. pose proof (sin_floor t T). pose proof kdl_eps_pos. replace (- sin t - sin t) with (- (2 * sin t)) by ring. rewrite Rabs_Ropp, Rabs_pos_eq; lra.
Qed.
Lemma apart_turn : measurable (at_x 1) (turned_tool 1).
Proof. split; [left; reflexivity|]. cbn [fM at_x turned_tool]. rewrite mT_id, mm_id_l. apply off_turn. lra. Qed.

Definition turn_start (m : Z) : list event :=
  [(GetEncoders, give home); (FwdKin home, give (row 1)); (GetControlModes, mode 6 m); (Sleep (1 / 10), yes); (GetControlModes, mode 6 m); (Now, number 100)].
Definition turning : st := setCurrentState VOCAB_CC_MOVL_CONTROLLING (set_startTime 100 (set_trajectories [turn_one] idle)).
Lemma movl_direct : exec (movl arm_direct 0 (facing 1)) idle (turn_start VOCAB_CM_POSITION_DIRECT) (Done true) turning.
Proof. unfold turn_start, home. cbn [repeat]. ex. Qed.
Lemma movl_steered : exec (movl arm 0 (facing 1)) idle (turn_start VOCAB_CM_VELOCITY) (Done true) turning.
Proof. unfold turn_start, home. cbn [repeat]. ex. Qed.
Definition still6 : list event := [(GetEncoders, give home); (GetEncoderSpeeds, give home); (GetEncoderAccelerations, give home)].
(** the first cycle, with direct positions *)
Definition first_cycle : list event := still6 ++ [(GetControlModes, mode 6 VOCAB_CM_POSITION_DIRECT);
   (Now, number 100); (TrajDuration turn_one, number 10); (TrajPos turn_one (100 - 100), give (row 1)); (InvKin (row 1) home BASE_FRAME, give home); (SetPositions home, yes)].
Lemma first_runs : exec (run arm_direct) turning first_cycle (Done tt) turning.
Proof. unfold first_cycle, still6, home. cbn [repeat app]. ex. Qed.
Lemma home_read t : In (GetEncoders, give home) t -> joints_read 6 t home.
Proof. intros I. exists (give home). repeat split; auto. Qed.
Lemma stands_home : stands xs home (at_x 1).
Proof. rewrite <- home_tool. rewrite <- rad_0. apply arm_stands. Qed.
Ltac aside := eapply through_cons; [reflexivity|].
Lemma start_served m : served dev xs (turn_start m) xs.
Proof.
  unfold turn_start. aside. eapply through_cons; [split; [reflexivity|]; exists (row 1); split; [exact fwd_home|split; reflexivity]|]. do 4 aside. constructor.
Qed.
Example movl_arm_direct : exists v2, usePosdMovl arm_direct = true /\ 0 < duration idle /\ length (facing 1) = 6%nat /\
  exec (movl arm_direct 0 (facing 1)) idle (turn_start VOCAB_CM_POSITION_DIRECT) (Done true) turning /\
  history arm_direct turning [(OCycle, first_cycle, true)] turning /\ Forall (fun e => lets_go_on (fst (fst e)) /\ no_tool (fst (fst e))) [(OCycle, first_cycle, true)] /\
  Forall as_kdl (trace_of [(OCycle, first_cycle, true)]) /\ served dev xs (turn_start VOCAB_CM_POSITION_DIRECT) xs /\ through (unwarned dev) xs (trace_of [(OCycle, first_cycle, true)]) v2 /\
  joints_read 6 (turn_start VOCAB_CM_POSITION_DIRECT) home /\ stands xs home (at_x 1) /\ regular_log (fM (at_x 1)) /\ measurable (at_x 1) (pose_at (facing 1) 0) /\
  In (SetPositions home, yes) first_cycle.
Proof.
  destruct (inv_near home eq_refl) as (qd & s' & IV & ER & _ & _ & Q). specialize (Q eq_refl). subst qd. exists s'. destruct turn_kdl as (K1 & K2 & _).
  split; [reflexivity|]. split; [cbn; lra|]. split; [reflexivity|]. split; [exact movl_direct|]. split; [eapply hcycle; [exact first_runs|constructor]|]. split; [repeat constructor|].
  unfold trace_of. cbn [map fst snd concat]. rewrite app_nil_r.
  split; [unfold first_cycle, still6; cbn [app]; repeat (apply Forall_cons; [first [exact I | exact K1 | exact K2]|]); apply Forall_nil|]. split; [apply start_served|]. split.
  { unfold first_cycle, still6. cbn [app]. do 7 (eapply through_cons; [split; [reflexivity|exact I]|]). eapply through_cons; [split; [|intros _; exact ER]|].
    - exists (Some home). split; [exact IV|split; reflexivity].
    - eapply through_cons; [split; [reflexivity|exact I]|]. constructor. }
  split; [apply home_read; left; reflexivity|]. split; [exact stands_home|]. split; [apply regular_x|]. split; [rewrite pose_facing by (pose proof eps_small; lra); exact apart_turn|].
  unfold first_cycle. apply in_or_app. right. cbn. auto 9.
Qed.

(** *** With velocities: halfway in time the tool has not turned yet *)
Definition late (w : R) : list event := still6 ++ [(GetControlModes, mode 6 VOCAB_CM_VELOCITY);
   (Now, number 105); (TrajDuration turn_one, number 10); (TrajPos turn_one (105 - 100), give (facing (1 / 2))); (TrajVel turn_one (105 - 100), give [0; 0; 0; 0; 0; 1 / 5]);
   (FwdKin home, give (row 1)); (PoseDiff (facing (1 / 2)) (row 1), give [0; 0; 0; 0; 0; 1 / 2]);
   (DiffInvKin home [0 * (1 / 20 * (1000 / 50)) + 0; 0 * (1 / 20 * (1000 / 50)) + 0; 0 * (1 / 20 * (1000 / 50)) + 0; 0 * (1 / 20 * (1000 / 50)) + 0;
      0 * (1 / 20 * (1000 / 50)) + 0; 1 / 2 * (1 / 20 * (1000 / 50)) + 1 / 5] BASE_FRAME, give [0; 0; 0; 0; 0; w]); (VelocityMove [0; 0; 0; 0; 0; w], yes)].
Lemma late_runs w : 0 < w < 100 -> exec (run arm) turning (late w) (Done tt) turning.
Proof. intros W. unfold late, still6, home. cbn [repeat app]. ex. Qed.
Lemma radians_small t : 0 < t < 1 -> 0 < KinRep.radToDeg t < 100.
Proof.
  intros T. unfold KinRep.radToDeg. pose proof PI2_3_2. assert (P : 3 < PI) by lra. split.
  - apply Rmult_lt_0_compat; [lra|]. apply Rdiv_lt_0_compat; lra.
  - assert (X : 180 / PI < 100). { apply Rmult_lt_reg_r with PI; [lra|]. replace (180 / PI * PI) with 180 by (field; lra). lra. }
    assert (0 < 180 / PI) by (apply Rdiv_lt_0_compat; lra). nra.
Qed.
Lemma dev_spins q t x : length q = 6%nat -> x = [0; 0; 0; 0; 0; t] -> Tree.diffInvKin (dev_kdl dev) xs q x (frame_named BASE_FRAME) = Tree.TTrue [0; 0; 0; 0; 0; KinRep.radToDeg t].
Proof.
  intros L ->. unfold Tree.diffInvKin, KdlSolver.joints_in. cbn [sv_chain xs SolverLoopExamples.xs]. change (nr_of_joints xc) with 6%nat. rewrite L. cbn [Nat.leb].
  change (frame_named BASE_FRAME) with KdlSolver.BASE_FRAME. cbn [dev dev_kdl Tree.c_vel]. unfold spin_last, TreeFacts5.spinning. cbn.
  rewrite !(proj2 (Reqb_true 0 0) eq_refl). cbn. rewrite deg_0. reflexivity.
Qed.
Lemma diff_facing t : 1 / 100 <= t <= 29 / 10 -> KdlSolver.poseDiff (facing t) (row 1) = [0; 0; 0; 0; 0; t].
Proof.
  intros T. pose proof eps_small. unfold KdlSolver.poseDiff. rewrite row_pose, frame_facing by lra. unfold KdlSolver.frame_diff, turned_tool, at_x. cbn [fM fp].
  unfold KdlSolver.rot_diff. rewrite mT_id, mm_id_l, mv_id, RotZ_Rot2. rewrite GetRot_Rot2; [|exact unit_z| |now apply sin_floor].
  - unfold KinRep.twistToVector, vscale, vsub. cbn. repeat f_equal; ring.
  - pose proof PI2_3_2. lra.
Qed.
Lemma six_eq (a b c d e f a' b' c' d' e' f' : R) : a = a' -> b = b' -> c = c' -> d = d' -> e = e' -> f = f' -> [a; b; c; d; e; f] = [a'; b'; c'; d'; e'; f'].
Proof. congruence. Qed.
Definition w7 : R := KinRep.radToDeg (7 / 10).
Lemma late_served : served dev xs (late w7) xs.
Proof.
  unfold late, still6. cbn [app]. do 8 aside. eapply through_cons; [split; [reflexivity|]; exists (row 1); split; [exact fwd_home|split; reflexivity]|].
  eapply through_cons; [split; [reflexivity|]; split; [reflexivity|]; rewrite diff_facing by lra; reflexivity|].
  eapply through_cons; [split; [reflexivity|]; rewrite (dev_spins _ (7 / 10)) by (reflexivity || (apply six_eq; lra)); split; reflexivity|]. aside. constructor.
Qed.
Example movl_arm : usePosdMovl arm = false /\ 0 < duration idle /\ length (facing 1) = 6%nat /\
  exec (movl arm 0 (facing 1)) idle (turn_start VOCAB_CM_VELOCITY) (Done true) turning /\
  history arm turning [(OCycle, late w7, true)] turning /\ Forall (fun e => lets_go_on (fst (fst e)) /\ no_tool (fst (fst e))) [(OCycle, late w7, true)] /\
  Forall as_kdl (trace_of [(OCycle, late w7, true)]) /\ served dev xs (turn_start VOCAB_CM_VELOCITY) xs /\ served dev xs (trace_of [(OCycle, late w7, true)]) xs /\
  joints_read 6 (turn_start VOCAB_CM_VELOCITY) home /\ stands xs home (at_x 1) /\ regular_log (fM (at_x 1)) /\ measurable (at_x 1) (pose_at (facing 1) 0) /\
  In (VelocityMove [0; 0; 0; 0; 0; w7], yes) (late w7) /\ joints_read 6 (late w7) home /\ TreeSpec.faithful_chain (dev_kdl dev) xs home.
Proof.
  destruct turn_kdl as (K1 & _ & K3 & K4).
  split; [reflexivity|]. split; [cbn; lra|]. split; [reflexivity|]. split; [exact movl_steered|]. split; [eapply hcycle; [apply late_runs, radians_small; lra|constructor]|]. split; [repeat constructor|].
  unfold trace_of. cbn [map fst snd concat]. rewrite app_nil_r.
  split; [unfold late, still6; cbn [app]; repeat (apply Forall_cons; [first [exact I | exact K1 | exact K3 | exact K4]|]); apply Forall_nil|].
  split; [apply start_served|]. split; [exact late_served|].
  split; [apply home_read; left; reflexivity|]. split; [exact stands_home|]. split; [apply regular_x|]. split; [rewrite pose_facing by (pose proof eps_small; lra); exact apart_turn|].
  split; [unfold late; apply in_or_app; right; cbn; auto 12|]. split; [apply home_read; left; reflexivity|apply arm_faithful].
Qed.

(** ** Streaming a velocity: the tool is asked to spin *)
Definition spun : list event :=
  [(GetControlModes, mode 6 VOCAB_CM_VELOCITY); (GetEncoders, give home); (DiffInvKin home [0; 0; 0; 0; 0; 7 / 10] BASE_FRAME, give [0; 0; 0; 0; 0; w7]); (VelocityMove [0; 0; 0; 0; 0; w7], yes)].
Lemma spun_runs w : 0 < w < 100 -> exec (twist arm [0; 0; 0; 0; 0; 7 / 10]) streaming
  [(GetControlModes, mode 6 VOCAB_CM_VELOCITY); (GetEncoders, give home); (DiffInvKin home [0; 0; 0; 0; 0; 7 / 10] BASE_FRAME, give [0; 0; 0; 0; 0; w]); (VelocityMove [0; 0; 0; 0; 0; w], yes)] (Done tt) streaming.
Proof. intros W. unfold home. cbn [repeat]. ex. Qed.
Example twist_arm : complete arm /\ wide arm /\ length [0; 0; 0; 0; 0; 7 / 10] = 6%nat /\ exec (twist arm [0; 0; 0; 0; 0; 7 / 10]) streaming spun (Done tt) streaming /\ served dev xs spun xs /\
  currentState streaming = VOCAB_CC_NOT_CONTROLLING /\ streamingCommand streaming = VOCAB_CC_TWIST /\ in_mode (numJoints arm) VOCAB_CM_VELOCITY spun /\
  TreeSpec.faithful_chain (dev_kdl dev) xs home.
Proof.
  split; [exact arm_complete|]. split; [exact arm_wide|]. split; [reflexivity|]. split; [apply spun_runs, radians_small; lra|]. split.
  { unfold spun. do 2 aside. eapply through_cons; [split; [reflexivity|]; rewrite (dev_spins _ (7 / 10)) by reflexivity; split; reflexivity|]. aside. constructor. }
  split; [reflexivity|]. split; [reflexivity|]. split; [apply in_six|apply arm_faithful].
Qed.

(** ** At constant velocity: one second later the tool has not turned yet *)
Definition spin_path : traj := Along (row 1) [0; 0; 0; 0; 0; 2 / 10].
Definition spin_start : list event :=
  [(GetEncoders, give home); (FwdKin home, give (row 1)); (GetControlModes, mode 6 VOCAB_CM_VELOCITY); (Sleep (1 / 10), yes); (GetControlModes, mode 6 VOCAB_CM_VELOCITY); (Now, number 5)].
Definition spinning_st : st := setCurrentState VOCAB_CC_MOVV_CONTROLLING (set_startTime 5 (set_trajectories [spin_path] idle)).
Lemma movv_starts : exec (movv arm [0; 0; 0; 0; 0; 2 / 10]) idle spin_start (Done true) spinning_st.
Proof. unfold spin_start, home. cbn [repeat]. ex. Qed.
Definition late_spin (w : R) : list event := still6 ++ [(GetControlModes, mode 6 VOCAB_CM_VELOCITY);
   (Now, number 6); (FwdKin home, give (row 1)); (TrajPos spin_path (6 - 5), give (facing (2 / 10))); (TrajVel spin_path (6 - 5), give [0; 0; 0; 0; 0; 2 / 10]);
   (PoseDiff (facing (2 / 10)) (row 1), give [0; 0; 0; 0; 0; 2 / 10]);
   (DiffInvKin home [0 * (1 / 20 * (1000 / 50)) + 0; 0 * (1 / 20 * (1000 / 50)) + 0; 0 * (1 / 20 * (1000 / 50)) + 0; 0 * (1 / 20 * (1000 / 50)) + 0;
      0 * (1 / 20 * (1000 / 50)) + 0; 2 / 10 * (1 / 20 * (1000 / 50)) + 2 / 10] BASE_FRAME, give [0; 0; 0; 0; 0; w]); (VelocityMove [0; 0; 0; 0; 0; w], yes)].
Lemma late_spin_runs w : 0 < w < 100 -> exec (run arm) spinning_st (late_spin w) (Done tt) spinning_st.
Proof. intros W. unfold late_spin, still6, home. cbn [repeat app]. ex. Qed.
Lemma norm_z t : 0 <= t -> norm (V 0 0 t) = t.
Proof. intros T. unfold norm, dot. cbn. replace (0 * 0 + 0 * 0 + t * t) with (t * t) by ring. now apply sqrt_square. Qed.
Lemma speed_spin : speed (TreeFacts5.spin (2 / 10)) = 2 / 10.
Proof. unfold speed, TreeFacts5.spin. cbn [t_vel t_rot]. rewrite norm_of_zero, norm_z by lra. apply Rmax_right. lra. Qed.
Lemma visible_spin : visible (TreeFacts5.spin (2 / 10)).
Proof.
  unfold visible. rewrite speed_spin. unfold TreeFacts5.spin. cbn [t_vel t_rot]. split; [left; reflexivity|]. split; [right|lra]. rewrite norm_z by lra. pose proof eps_small. pose proof PI2_3_2.
  repeat split; try lra. apply sin_floor. lra.
Qed.
Lemma going_spin : LineSpec.going (at_x 1) (TreeFacts5.spin (2 / 10)) (6 - 5) = turned_tool (2 / 10).
Proof.
  unfold LineSpec.going, TreeFacts5.spin, at_x, turned_tool. cbn [t_vel t_rot fM fp]. rewrite norm_z by lra. f_equal; [|unfold vadd, vscale, vzero; cbn; f_equal; ring].
  rewrite mm_id_r. replace ((6 - 5) * (2 / 10)) with (2 / 10) by field. rewrite <- (rot_facing (2 / 10)) by (pose proof eps_small; lra). unfold rot_of. now rewrite norm_z by lra.
Qed.
Definition w4 : R := KinRep.radToDeg (4 / 10).
Example movv_arm : length [0; 0; 0; 0; 0; 2 / 10] = 6%nat /\ exec (movv arm [0; 0; 0; 0; 0; 2 / 10]) idle spin_start (Done true) spinning_st /\
  history arm spinning_st [(OCycle, late_spin w4, true)] spinning_st /\ Forall (fun e => lets_go_on (fst (fst e)) /\ no_tool (fst (fst e))) [(OCycle, late_spin w4, true)] /\
  Forall as_kdl (trace_of [(OCycle, late_spin w4, true)]) /\ served dev xs spin_start xs /\ served dev xs (trace_of [(OCycle, late_spin w4, true)]) xs /\ visible (twist_at [0; 0; 0; 0; 0; 2 / 10] 0) /\
  joints_read 6 spin_start home /\ stands xs home (at_x 1) /\ regular_log (fM (at_x 1)) /\ In (VelocityMove [0; 0; 0; 0; 0; w4], yes) (late_spin w4) /\
  (6 - 5) * speed (twist_at [0; 0; 0; 0; 0; 2 / 10] 0) <= 10 /\ joints_read 6 (late_spin w4) home /\ TreeSpec.faithful_chain (dev_kdl dev) xs home.
Proof.
  change (twist_at [0; 0; 0; 0; 0; 2 / 10] 0) with (TreeFacts5.spin (2 / 10)).
  destruct (along_going (at_x 1) (TreeFacts5.spin (2 / 10)) (6 - 5) (rigid_x 1) visible_spin ltac:(lra) ltac:(rewrite speed_spin; lra)) as (A & B). rewrite going_spin in A.
  assert (K1 : as_kdl (TrajPos spin_path (6 - 5), give (facing (2 / 10)))).
  { cbn [as_kdl spin_path]. change (KinRep.vectorToTwist [0; 0; 0; 0; 0; 2 / 10]) with (TreeFacts5.spin (2 / 10)). rewrite row_pose, A, facing_vector by lra. reflexivity. }
  assert (K2 : as_kdl (TrajVel spin_path (6 - 5), give [0; 0; 0; 0; 0; 2 / 10])).
  { cbn [as_kdl spin_path]. change (KinRep.vectorToTwist [0; 0; 0; 0; 0; 2 / 10]) with (TreeFacts5.spin (2 / 10)). rewrite row_pose, B. reflexivity. }
  split; [reflexivity|]. split; [exact movv_starts|]. split; [eapply hcycle; [apply late_spin_runs, radians_small; lra|constructor]|]. split; [repeat constructor|].
  unfold trace_of. cbn [map fst snd concat]. rewrite app_nil_r.
  split; [unfold late_spin, still6; cbn [app]; repeat (apply Forall_cons; [first [exact I | exact K1 | exact K2]|]); apply Forall_nil|].
  split. { unfold spin_start. aside. eapply through_cons; [split; [reflexivity|]; exists (row 1); split; [exact fwd_home|split; reflexivity]|]. do 4 aside. constructor. }
  split. { unfold late_spin, still6. cbn [app]. do 5 aside. eapply through_cons; [split; [reflexivity|]; exists (row 1); split; [exact fwd_home|split; reflexivity]|]. do 2 aside.
    eapply through_cons; [split; [reflexivity|]; split; [reflexivity|]; rewrite diff_facing by lra; reflexivity|].
    eapply through_cons; [split; [reflexivity|]; rewrite (dev_spins _ (4 / 10)) by (reflexivity || (apply six_eq; lra)); split; reflexivity|]. aside. constructor. }
  split; [exact visible_spin|]. split; [apply home_read; left; reflexivity|]. split; [exact stands_home|]. split; [apply regular_x|].
  split; [unfold late_spin; apply in_or_app; right; cbn; auto 12|]. split; [rewrite speed_spin; lra|]. split; [apply home_read; left; reflexivity|apply arm_faithful].
Qed.
