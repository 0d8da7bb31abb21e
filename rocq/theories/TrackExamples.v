(** A slider that follows a line: examples and a counterexample. *)
From Coq Require Import Reals ZArith List Bool Lra Lia.
From Verif Require Import Kdl KdlFacts KdlRot KdlRotFacts KinRepSpec AsibotSpec KdlTraj LineSpec LineFacts LineFacts2 LineFacts3 KeyboardFacts7 Vocab Bcc BccSpec BccKdl BccLineSpec
  BccCmdSpec BccFacts BccFacts2 BccFacts5 BccExamples BccLineFacts2 BccLineFacts3 BccLineExamples BccLineExamples2 BccCmdExamples Sys SysSpec SysFacts SysFacts2 SysFacts3 SysExamples
  TrackSpec TrackFacts.
From Verif Require Screw Selector Builder BuilderExamples KinRep KdlSolver Tree TreeSpec TrigFacts.
Import ListNotations.
Open Scope R_scope.
Local Notation S := Datatypes.S.
Local Notation length := List.length.
Local Notation sv_chain := KdlSolver.sv_chain.
Local Notation on_line := BccLineSpec.on_line.
Local Notation degToRad := KinRep.degToRad.
Local Notation radToDeg := KinRep.radToDeg.

(** ** The slider: one joint along the x axis *)
Definition slider_segment : segment := mk_segment (J JTransX 1 0 vzero vzero) fid.
Definition slider_chain : chain := [slider_segment].
Definition slider_axis : Screw.mexp := Screw.E Screw.TRANSLATION (V 1 0 0) vzero.
Definition slider_poe : Screw.poe := Screw.P [slider_axis] fid.
Definition slider_sel : Selector.selector := Selector.new_selector [- PI] [PI].
Definition slider_steps : list Builder.sub := [Builder.SPG1 0 slider_axis vzero].
Definition slider : KdlSolver.solver := KdlSolver.Sv slider_chain slider_chain (KdlSolver.StIk slider_poe slider_steps false 0 slider_sel).

Lemma slider_pose x : segment_pose slider_segment x = at_x x.
Proof.
  unfold segment_pose, slider_segment, mk_segment. cbn [s_joint s_tip].
  assert (P : forall y, joint_pose (J JTransX 1 0 vzero vzero) y = at_x y).
  { intro y. unfold joint_pose. cbn [j_type j_scale j_offset]. replace (1 * y + 0) with y by ring. reflexivity. }
  rewrite !P. unfold at_x, fmul, finv, fapp, fid. cbn [fM fp]. f_equal; [apply mat_eq; cbn; ring|apply vec_eq; cbn; ring].
Qed.
Lemma slider_formula : Screw.fromChain slider_chain = slider_poe.
Proof.
  unfold Screw.fromChain, slider_chain. cbn [fold_left]. unfold Screw.fromChain_step. rewrite slider_pose.
  cbn [slider_segment s_joint mk_segment j_type Screw.jointTypeToMotionId joint_axis j_origin Screw.mk_poe Screw.append_exp Screw.exps app].
  unfold slider_poe. f_equal; [f_equal|].
  - unfold Screw.mk_exp, Screw.cloneWithBase, Screw.changeBase, slider_axis. cbn [fid fM fp Screw.e_motion Screw.e_axis Screw.e_origin]. fold fid. rewrite ?fapp_id, ?mv_id, ?normalize_x. reflexivity.
  - unfold fmul, at_x, fid, fapp. cbn. f_equal; [apply mat_eq; cbn; ring|apply vec_eq; cbn; ring].
Qed.
Lemma slider_built : Builder.build 1 [] slider_poe = Builder.Returns (Some (slider_poe, slider_steps, false)).
Proof.
  unfold Builder.build. assert (C0 : Builder.compare_vectors vzero vzero = false) by BuilderExamples.decide_test.
  assert (S1 : Builder.searchPoints slider_poe [] = Some ([vzero], [])).
  { unfold Builder.searchPoints, Builder.axis_points, Builder.pt_add. cbn -[Builder.compare_vectors]. change (V 0 0 0) with vzero. rewrite ?C0. reflexivity. }
  rewrite S1. unfold Builder.build_with. reflexivity.
Qed.
Lemma slider_opens : KdlSolver.sv_open 1 [] slider_chain slider_sel = Builder.Returns (Some slider).
Proof. unfold KdlSolver.sv_open, KdlSolver.st_create. rewrite slider_formula, slider_built. reflexivity. Qed.
Lemma slider_ok : Screw.chain_ok slider_chain.
Proof.
  apply Forall_cons; [|apply Forall_nil]. unfold Screw.segment_ok, slider_segment, mk_segment. cbn [s_joint s_tip j_type j_axis j_origin j_scale j_offset].
  assert (P : joint_pose (J JTransX 1 0 vzero vzero) 0 = fid).
  { unfold joint_pose. cbn [j_type j_scale j_offset]. replace (1 * 0 + 0) with 0 by ring. reflexivity. }
  rewrite P. split; [apply rigid_mul; [apply rigid_inv, rigid_id|apply rigid_id]|]. split; [intros [X|X]; discriminate|auto].
Qed.
(** a velocity solver that knows that the slider only goes along its axis *)
Definition sliding_along (x : KdlRot.twist) : option (list R) :=
  if Reqb (vy (t_vel x)) 0 && Reqb (vz (t_vel x)) 0 && Reqb (vx (t_rot x)) 0 && Reqb (vy (t_rot x)) 0 && Reqb (vz (t_rot x)) 0 then Some [vx (t_vel x)] else None.
Definition along_x (v : R) : KdlRot.twist := Tw (V v 0 0) vzero.
Lemma sliding_spec x v : sliding_along x = Some v -> exists w, x = along_x w /\ v = [w].
Proof.
  destruct x as [[a b c] [d e f]]. unfold sliding_along. cbn. intro H.
  destruct (Reqb b 0) eqn:B; [|discriminate]. destruct (Reqb c 0) eqn:C; [|discriminate].
  destruct (Reqb d 0) eqn:D; [|discriminate]. destruct (Reqb e 0) eqn:E; [|discriminate]. destruct (Reqb f 0) eqn:G; [|discriminate].
  apply Reqb_true in B, C, D, E, G. subst. injection H as <-. exists a. auto.
Qed.
Definition sdev : device := Dev Selector.find_least (Tree.Cks (fun _ _ x => sliding_along x) (fun _ _ _ _ _ => None)) 1.
Lemma sdev_opened : opened sdev slider_chain [] slider.
Proof. exists [], slider_sel, slider. split; [exact slider_opens|constructor]. Qed.
Lemma sdev_one : one_per_joint sdev slider.
Proof. intros q t w. cbn. intros E. apply sliding_spec in E. destruct E as (u & _ & ->). reflexivity. Qed.
Lemma slider_fk x : chain_fwd_kin slider_chain [x] = Some (at_x x).
Proof. unfold chain_fwd_kin, slider_chain. cbn [chain_fk]. change (is_fixed (s_joint slider_segment)) with false. cbv iota. rewrite slider_pose, fmul_id_l. reflexivity. Qed.
Lemma slider_stands q : stands slider [q] (at_x (degToRad q)).
Proof. unfold stands. cbn [map sv_chain slider]. apply slider_fk. Qed.
Lemma stands_only q f : stands slider [q] f -> f = at_x (degToRad q).
Proof. intros E. pose proof (slider_stands q) as E'. unfold stands in *. rewrite E' in E. now injection E. Qed.
Lemma rad_deg x : degToRad (radToDeg x) = x.
Proof. unfold KinRep.degToRad, KinRep.radToDeg. field. apply PI_neq0. Qed.
Lemma affine_derivative x v : derivable_pt_lim (fun u => x + u * v) 0 v.
Proof.
  intros eps E. exists (mkposreal 1 Rlt_0_1). intros h H _. replace ((x + (0 + h) * v - (x + 0 * v)) / h - v) with 0 by (field; exact H). rewrite Rabs_R0. exact E.
Qed.
Lemma sliding_velocity x v : velocity_of (fun u => at_x (x + u * v)) 0 (along_x v).
Proof.
  unfold velocity_of, at_x, along_x. cbn. repeat split; try apply affine_derivative;
    match goal with |- derivable_pt_lim ?f ?x ?l => replace l with 0 by ring; apply derivable_pt_lim_const end.
Qed.
Lemma slider_faithful q : TreeSpec.faithful_chain (dev_kdl sdev) slider [q].
Proof.
  unfold TreeSpec.faithful_chain. intros x v E. cbn [sdev dev_kdl Tree.c_vel] in E. apply sliding_spec in E. destruct E as (w & -> & ->). split; [reflexivity|].
  intros p P. assert (X : p = fun u => at_x (degToRad q + u * w)).
  { apply FunctionalExtensionality.functional_extensionality. intro u. specialize (P u). cbn [sv_chain slider] in P.
    change (nr_of_joints slider_chain) with 1%nat in P. cbn [firstn map] in P. unfold TreeSpec.moving in P. cbn [combine map fst snd] in P.
    rewrite slider_fk in P. now injection P. }
  rewrite X. apply sliding_velocity.
Qed.
Lemma slider_carries q w v : carries slider [q] [w] v -> t_vel v = V (degToRad w) 0 0.
Proof.
  intros (p & P & (D1 & D2 & D3 & _)). assert (X : p = fun u => at_x (degToRad q + u * degToRad w)).
  { apply FunctionalExtensionality.functional_extensionality. intro u. specialize (P u). unfold TreeSpec.moving in P. cbn [combine map fst snd] in P. apply stands_only in P. rewrite P. f_equal. unfold KinRep.degToRad. ring. }
  subst p. destruct (sliding_velocity (degToRad q) (degToRad w)) as (E1 & E2 & E3 & _). destruct (t_vel v) as [a b c]. cbn in D1, D2, D3, E1, E2, E3.
  f_equal; eapply limit_unique; eauto.
Qed.

(** ** One metre in ten seconds: the second half of the line *)
Definition sled : cfg := Cfg 1 false false false [-180] [180] [-1000] [1000] [10].
Lemma sled_complete : complete sled. Proof. repeat split. Qed.
Lemma second_half t : 5 <= t <= 10 -> line_pos (at_x 0) (at_x 1) 10 t = Some (at_x (1 - 2 * ((1 - t / 10) * (1 - t / 10)))) /\
  line_vel (at_x 0) (at_x 1) 10 t = Some (along_x ((10 - t) / 25)).
Proof.
  intros T. split.
  - destruct (line_x 10 t) as (-> & _). destruct (profile_1 10 ltac:(lra)) as (p & -> & _ & _ & _ & P & _). cbn. pose proof q10_bounds. rewrite P by lra. reflexivity.
  - unfold line_vel, line_profile. rewrite path_x. cbn [pt_len]. pose proof q10_sq as Q2. pose proof q10_bounds as QB.
    unfold trap_duration, trap_set. replace (Rltb (1 - 0) 0) with false by (symmetry; apply Rltb_false; lra). cbv zeta.
    replace (1 * 10 * (10 / 10 * (10 / 10)) / 2) with 5 by field. replace ((1 - 0 - 2 * 5) / (1 * 10)) with (- (9 / 10)) by field.
    replace (Rltb 0 (- (9 / 10))) with false by (symmetry; apply Rltb_false; lra). replace ((1 - 0) / 1 / 10) with (1 / 10) by field. fold q10. cbn [tp_d tp_start tp_end tp_t1 tp_t2 tp_a1 tp_a2 tp_a3 tp_b1 tp_b2 tp_b3 tp_c1 tp_c2 tp_c3].
    rewrite Reqb_of by lra. replace (Rltb 1 (q10 * 2 / 10)) with false by (symmetry; apply Rltb_false; lra). cbn [option_map].
    assert (T1 : stretch (q10 * 2 / 10) (Some q10) = Some 5). { unfold stretch. rewrite Reqb_of by lra. f_equal. field. lra. }
    unfold trap_vel. cbn [tp_start tp_t1 tp_t2 tp_d tp_end tp_a1 tp_a2 tp_a3 tp_b2 tp_b3 tp_c1 tp_c2 tp_c3]. rewrite T1. cbn [below].
    replace (Rltb t 0) with false by (symmetry; apply Rltb_false; lra). replace (Rltb t 5) with false by (symmetry; apply Rltb_false; lra).
    replace (Rleb t 10) with true by (symmetry; apply Rleb_true; lra).
    f_equal. unfold path_vel, along_x. cbn [pt_start pt_dir pt_axis pt_lin pt_rot fM at_x]. f_equal; unfold vscale, mv, vzero; cbn; f_equal; nra.
Qed.
(** a cycle at the time [now], with the joint at [q] and the tool at [x], which should be at [m] and go at [v] *)
Definition push (k x m v : R) : list R := [(m - x) * k + v; 0 * k + 0; 0 * k + 0; 0 * k + 0; 0 * k + 0; 0 * k + 0].
Definition follow (now q x m v w : R) : list event :=
  [(GetEncoders, give [q]); (GetEncoderSpeeds, give [0]); (GetEncoderAccelerations, give [0]); (GetControlModes, mode 1 VOCAB_CM_VELOCITY);
   (Now, number now); (TrajDuration to_one, number 10); (TrajPos to_one (now - 100), give (row m)); (TrajVel to_one (now - 100), give (row v));
   (FwdKin [q], give (row x)); (PoseDiff (row m) (row x), give (row (m - x))); (DiffInvKin [q] (push (1 / 20 * (1000 / 50)) x m v) BASE_FRAME, give [w]); (VelocityMove [w], yes)].
Lemma follow_runs now q x m v w : now - 100 <= 10 -> -100 < q < 100 -> -100 < w < 100 -> exec (run sled) sliding (follow now q x m v w) (Done tt) sliding.
Proof. intros N Q W. unfold follow, push. ex. Qed.
Lemma movl_sled : exec (movl sled 0 (row 1)) idle line_start (Done true) sliding.
Proof. ex. Qed.
Lemma slider_fwd q x : degToRad q = x -> KdlSolver.fwdKin slider [q] = Some (row x).
Proof.
  intros <-. unfold KdlSolver.fwdKin, KdlSolver.joints_in. cbn [sv_chain slider]. change (nr_of_joints slider_chain) with 1%nat. cbn [length Nat.leb firstn map]. rewrite slider_fk. cbn [option_map]. now rewrite x_row.
Qed.
Lemma slider_diff m x : KdlSolver.poseDiff (row m) (row x) = row (m - x).
Proof.
  unfold KdlSolver.poseDiff. rewrite !row_pose. unfold KdlSolver.frame_diff, at_x. cbn [fM fp]. unfold KdlSolver.rot_diff. rewrite mT_id, mm_id_l, mv_id. unfold GetRot. rewrite GetRotAngle_id.
  unfold KinRep.twistToVector, vscale, vsub, row. cbn. repeat f_equal; ring.
Qed.
Lemma slider_push q k x m v : Tree.diffInvKin (dev_kdl sdev) slider [q] (push k x m v) (frame_named BASE_FRAME) = Tree.TTrue [radToDeg ((m - x) * k + v)].
Proof.
  unfold push. replace (0 * k + 0) with 0 by ring. unfold Tree.diffInvKin, KdlSolver.joints_in. cbn [sv_chain slider]. change (nr_of_joints slider_chain) with 1%nat. cbn [length Nat.leb].
  change (frame_named BASE_FRAME) with KdlSolver.BASE_FRAME. cbn [sdev dev_kdl Tree.c_vel]. unfold sliding_along. cbn. rewrite !(proj2 (Reqb_true 0 0) eq_refl). reflexivity.
Qed.
Lemma follow_served now q x m v w : degToRad q = x -> w = radToDeg ((m - x) * (1 / 20 * (1000 / 50)) + v) -> served sdev slider (follow now q x m v w) slider.
Proof.
  intros E ->. unfold follow. do 8 aside. eapply through_cons; [split; [reflexivity|]; exists (row x); split; [now apply slider_fwd|split; reflexivity]|].
  eapply through_cons; [split; [reflexivity|]; split; [reflexivity|]; rewrite slider_diff; reflexivity|].
  eapply through_cons; [split; [reflexivity|]; rewrite slider_push; split; reflexivity|]. aside. constructor.
Qed.
Lemma follow_kdl now q x m v w : 105 <= now <= 110 -> m = 1 - 2 * ((1 - (now - 100) / 10) * (1 - (now - 100) / 10)) -> v = (10 - (now - 100)) / 25 -> Forall as_kdl (follow now q x m v w).
Proof.
  intros T M E. destruct (second_half (now - 100) ltac:(lra)) as (P & W). rewrite <- M in P. rewrite <- E in W.
  unfold follow. repeat (apply Forall_cons; [first [exact I | exact takes_kdl | idtac]|]); try apply Forall_nil.
  - apply (row_kdl _ m); [rewrite P; congruence|reflexivity].
  - intros u U. rewrite !row_pose, W in U. injection U as <-. reflexivity.
Qed.
Lemma start_served_slider : served sdev slider line_start slider.
Proof. unfold line_start. aside. eapply through_cons; [split; [reflexivity|]; exists (row 0); split; [apply slider_fwd, rad_0|split; reflexivity]|]. do 4 aside. constructor. Qed.
Lemma reads_only (t : list event) q q' : (forall a, In (GetEncoders, a) t -> a = give [q]) -> joints_read 1 t q' -> q' = [q].
Proof. intros H (a & Ia & _ & L & N). rewrite (H a Ia) in N. destruct q' as [|y [|? ?]]; try discriminate. specialize (N 0%nat ltac:(lia)). cbn in N. now subst. Qed.
Lemma reads (t : list event) q : In (GetEncoders, give [q]) t -> joints_read 1 t [q].
Proof. intros I0. exists (give [q]). repeat split; auto. Qed.
Ltac sole := intros; repeat match goal with
  | H : In _ (_ :: _) |- _ => destruct H as [H|H]; [try discriminate H; try (injection H; intros; subst; reflexivity)|]
  | H : In _ [] |- _ => destruct H
  end.
Lemma follow_reads now q x m v w q' : joints_read 1 (follow now q x m v w) q' -> q' = [q].
Proof. apply reads_only. unfold follow. sole. Qed.
Lemma norm_x_abs x : norm (V x 0 0) = Rabs x.
Proof. unfold norm, dot. cbn. replace (x * x + 0 * 0 + 0 * 0) with (Rsqr x) by (unfold Rsqr; ring). apply sqrt_Rsqr_abs. Qed.
(** a slider goes on exactly as told *)
Lemma slides_on (timely : R -> Prop) (t t' : list event) q w n q' n' :
  (forall a, In (GetEncoders, a) t -> a = give [q]) -> (forall x a, In (VelocityMove x, a) t -> x = [w]) -> (forall a, In (Now, a) t -> a = number n) ->
  (forall a, In (GetEncoders, a) t' -> a = give [q']) -> (forall a, In (Now, a) t' -> a = number n') ->
  timely (n' - n) -> degToRad q' = degToRad q + (n' - n) * degToRad w -> obeys 1 slider timely 0 t t'.
Proof.
  intros H1 H2 H3 H4 H5 TM E q0 w0 a v f now q0' f' now' J Iw C SF In0 J' SF' In0'.
  apply (reads_only _ _ _ H1) in J. apply (reads_only _ _ _ H4) in J'. apply H2 in Iw. apply H3 in In0. apply H5 in In0'. subst.
  apply slider_carries in C. apply stands_only in SF. apply stands_only in SF'. subst. cbn [num number]. split; [exact TM|]. rewrite C, E. unfold at_x, vsub, vadd, vscale. cbn [fp vx vy vz].
  replace (V _ _ _) with (V 0 0 0) by (f_equal; ring). rewrite norm_x_abs, Rabs_R0. lra.
Qed.

(** *** A tool that is ten centimetres late *)
Definition q_a : R := radToDeg (2 / 5).
Definition w_a : R := radToDeg (3 / 10).
Definition q_b : R := radToDeg (415 / 1000).
Definition w_b : R := radToDeg (29295 / 100000).
Definition late_a : list event := follow 105 q_a (2 / 5) (1 / 2) (1 / 5) w_a.
Definition late_b : list event := follow (10505 / 100) q_b (415 / 1000) (50995 / 100000) (198 / 1000) w_b.
Definition late_cycles : list entry := [(OCycle, late_a, true); (OCycle, late_b, true)].
Example slider_line :
  Screw.chain_ok slider_chain /\ opened sdev slider_chain [] slider /\ numJoints sled = nr_of_joints (sv_chain slider) /\ one_per_joint sdev slider /\
  usePosdMovl sled = false /\ 0 < duration idle /\ length (row 1) = 6%nat /\ exec (movl sled 0 (row 1)) idle line_start (Done true) sliding /\
  history sled sliding late_cycles sliding /\ Forall (fun e => lets_go_on (fst (fst e)) /\ no_tool (fst (fst e))) late_cycles /\
  Forall as_kdl (trace_of late_cycles) /\ served sdev slider line_start slider /\ served sdev slider (trace_of late_cycles) slider /\
  joints_read 1 line_start [0] /\ stands slider [0] (at_x 0) /\ regular_log (fM (at_x 0)) /\ measurable (at_x 0) (pose_at (row 1) 0) /\
  Forall (driven late_cycles) [late_a; late_b] /\ Forall (solvable sdev 1 slider) [late_a; late_b] /\
  each_next (obeys 1 slider (fun h => 0 <= h <= 1 / 20 /\ Rabs (1 - gain idle * h / (IZR (cmcPeriodMs idle) / 1000)) <= 19 / 20) 0) [late_a; late_b] /\
  (joints_read 1 late_a [q_a] /\ stands slider [q_a] (at_x (2 / 5))) /\ (joints_read 1 late_b [q_b] /\ stands slider [q_b] (at_x (415 / 1000))).
Proof.
  assert (QA : degToRad q_a = 2 / 5) by apply rad_deg. assert (QB : degToRad q_b = 415 / 1000) by apply rad_deg. assert (WA : degToRad w_a = 3 / 10) by apply rad_deg.
  split; [exact slider_ok|]. split; [exact sdev_opened|]. split; [reflexivity|]. split; [exact sdev_one|].
  split; [reflexivity|]. split; [cbn; lra|]. split; [reflexivity|]. split; [exact movl_sled|]. split.
  { eapply hcycle; [apply follow_runs; [lra| |]|]. 3: eapply hcycle; [apply follow_runs; [lra| |]|constructor].
    all: match goal with |- _ < ?x < _ => unfold x end; match goal with |- _ < radToDeg ?x < _ => pose proof (radians_small x ltac:(lra)); lra end. }
  split; [repeat constructor|]. unfold trace_of, late_cycles. cbn [map fst snd concat]. rewrite app_nil_r.
  split; [apply Forall_app; split; apply follow_kdl; lra|]. split; [exact start_served_slider|].
  split; [apply through_app; exists slider; split; apply follow_served; try assumption; unfold w_a, w_b; f_equal; lra|].
  split; [apply reads; left; reflexivity|]. split; [rewrite <- rad_0 at 2; apply slider_stands|]. split; [apply regular_x|]. split; [rewrite pose_row; apply apart_x|].
  split; [repeat apply Forall_cons; try apply Forall_nil; [exists true, [w_a], yes|exists true, [w_b], yes]; split; cbn; auto 14|].
  split; [repeat apply Forall_cons; try apply Forall_nil; intros q Q; apply follow_reads in Q; subst q; apply slider_faithful|].
  split. { split; [|split; exact I]. apply (slides_on _ _ _ q_a w_a 105 q_b (10505 / 100)); try (unfold late_a, late_b, follow; sole; fail).
    - cbn [gain idle cmcPeriodMs]. split; [lra|]. rewrite Rabs_pos_eq; lra.
    - rewrite QA, QB, WA. lra. }
  split; (split; [apply reads; left; reflexivity|]); [rewrite <- QA|rewrite <- QB]; apply slider_stands.
Qed.

(** ** At a constant velocity of twenty centimetres per second *)
Definition drift_path : traj := Along (row 0) (row (1 / 5)).
Definition drift_start : list event :=
  [(GetEncoders, give [0]); (FwdKin [0], give (row 0)); (GetControlModes, mode 1 VOCAB_CM_VELOCITY); (Sleep (1 / 10), yes); (GetControlModes, mode 1 VOCAB_CM_VELOCITY); (Now, number 5)].
Definition drifting (s : st) : st := setCurrentState VOCAB_CC_MOVV_CONTROLLING (set_startTime 5 (set_trajectories [drift_path] s)).
Definition keen : st := set_gain 3 idle.
Definition drift (k now q x m w : R) : list event :=
  [(GetEncoders, give [q]); (GetEncoderSpeeds, give [0]); (GetEncoderAccelerations, give [0]); (GetControlModes, mode 1 VOCAB_CM_VELOCITY);
   (Now, number now); (FwdKin [q], give (row x)); (TrajPos drift_path (now - 5), give (row m)); (TrajVel drift_path (now - 5), give (row (1 / 5)));
   (PoseDiff (row m) (row x), give (row (m - x))); (DiffInvKin [q] (push k x m (1 / 5)) BASE_FRAME, give [w]); (VelocityMove [w], yes)].
Lemma movv_sled : exec (movv sled (row (1 / 5))) idle drift_start (Done true) (drifting idle).
Proof. ex. Qed.
Lemma movv_keen : exec (movv sled (row (1 / 5))) keen drift_start (Done true) (drifting keen).
Proof. ex. Qed.
Lemma drift_runs now q x m w : -100 < q < 100 -> -900 < w < 900 -> exec (run sled) (drifting idle) (drift (1 / 20 * (1000 / 50)) now q x m w) (Done tt) (drifting idle).
Proof. intros Q W. unfold drift, push. ex. Qed.
Lemma drift_keen now q x m w : -100 < q < 100 -> -900 < w < 900 -> exec (run sled) (drifting keen) (drift (3 * (1000 / 50)) now q x m w) (Done tt) (drifting keen).
Proof. intros Q W. unfold drift, push. ex. Qed.
Lemma drift_served k now q x m w : degToRad q = x -> w = radToDeg ((m - x) * k + 1 / 5) -> served sdev slider (drift k now q x m w) slider.
Proof.
  intros E ->. unfold drift. do 5 aside. eapply through_cons; [split; [reflexivity|]; exists (row x); split; [now apply slider_fwd|split; reflexivity]|]. do 2 aside.
  eapply through_cons; [split; [reflexivity|]; split; [reflexivity|]; rewrite slider_diff; reflexivity|].
  eapply through_cons; [split; [reflexivity|]; rewrite slider_push; split; reflexivity|]. aside. constructor.
Qed.
Lemma drift_start_served : served sdev slider drift_start slider.
Proof. unfold drift_start. aside. eapply through_cons; [split; [reflexivity|]; exists (row 0); split; [apply slider_fwd, rad_0|split; reflexivity]|]. do 4 aside. constructor. Qed.
Lemma speed_drift : speed (along_x (1 / 5)) = 1 / 5.
Proof. unfold speed, along_x. cbn [t_vel t_rot]. rewrite norm_of_zero, norm_x by lra. apply Rmax_left. lra. Qed.
Lemma visible_drift : visible (along_x (1 / 5)).
Proof. unfold visible. rewrite speed_drift. unfold along_x. cbn [t_vel t_rot]. split; [right; rewrite norm_x by lra; pose proof eps_small; lra|]. split; [left; reflexivity|lra]. Qed.
Lemma going_drift u : LineSpec.going (at_x 0) (along_x (1 / 5)) u = at_x (u / 5).
Proof.
  unfold LineSpec.going, along_x, at_x. cbn [t_vel t_rot fM fp]. rewrite norm_of_zero, Rmult_0_r. f_equal; [unfold Rot; rewrite Rot2_zero; apply mm_id_l|unfold vadd, vscale; cbn; f_equal; field].
Qed.
Lemma drift_kdl k now q x m w : 0 <= now - 5 <= 10 -> m = (now - 5) / 5 -> Forall as_kdl (drift k now q x m w).
Proof.
  intros T ->. destruct (along_going (at_x 0) (along_x (1 / 5)) (now - 5) (rigid_x 0) visible_drift ltac:(lra) ltac:(rewrite speed_drift; lra)) as (A & B). rewrite going_drift in A.
  unfold drift. repeat (apply Forall_cons; [first [exact I | idtac]|]); try apply Forall_nil; cbn [as_kdl drift_path]; change (KinRep.vectorToTwist (row (1 / 5))) with (along_x (1 / 5)); rewrite row_pose, ?A, ?B, ?x_row; reflexivity.
Qed.
Lemma drift_reads k now q x m w q' : joints_read 1 (drift k now q x m w) q' -> q' = [q].
Proof. apply reads_only. unfold drift. sole. Qed.

(** *** Ten centimetres late, with the gain of the documentation *)
Definition q_c : R := radToDeg (1 / 10).
Definition w_c : R := radToDeg (3 / 10).
Definition q_d : R := radToDeg (115 / 1000).
Definition w_d : R := radToDeg (295 / 1000).
Definition drift_c : list event := drift (1 / 20 * (1000 / 50)) 6 q_c (1 / 10) (1 / 5) w_c.
Definition drift_d : list event := drift (1 / 20 * (1000 / 50)) (605 / 100) q_d (115 / 1000) (21 / 100) w_d.
Definition drift_cycles : list entry := [(OCycle, drift_c, true); (OCycle, drift_d, true)].
Example slider_drifts :
  Screw.chain_ok slider_chain /\ opened sdev slider_chain [] slider /\ numJoints sled = nr_of_joints (sv_chain slider) /\ one_per_joint sdev slider /\
  length (row (1 / 5)) = 6%nat /\ exec (movv sled (row (1 / 5))) idle drift_start (Done true) (drifting idle) /\ referenceFrame idle = BASE_FRAME /\
  history sled (drifting idle) drift_cycles (drifting idle) /\ Forall (fun e => lets_go_on (fst (fst e)) /\ no_tool (fst (fst e))) drift_cycles /\
  Forall as_kdl (trace_of drift_cycles) /\ served sdev slider drift_start slider /\ served sdev slider (trace_of drift_cycles) slider /\ visible (twist_at (row (1 / 5)) 0) /\
  joints_read 1 drift_start [0] /\ stands slider [0] (at_x 0) /\ regular_log (fM (at_x 0)) /\
  Forall (driven drift_cycles) [drift_c; drift_d] /\ Forall (solvable sdev 1 slider) [drift_c; drift_d] /\
  each_next (obeys 1 slider (fun h => Rabs (1 - gain idle * h / (IZR (cmcPeriodMs idle) / 1000)) <= 19 / 20) 0) [drift_c; drift_d] /\
  Forall (fun t => forall now, In (Now, now) t -> 0 <= num now - 5 /\ (num now - 5) * speed (twist_at (row (1 / 5)) 0) <= 10) [drift_c; drift_d] /\
  (joints_read 1 drift_c [q_c] /\ stands slider [q_c] (at_x (1 / 10))) /\ (joints_read 1 drift_d [q_d] /\ stands slider [q_d] (at_x (115 / 1000))).
Proof.
  change (twist_at (row (1 / 5)) 0) with (along_x (1 / 5)).
  assert (QC : degToRad q_c = 1 / 10) by apply rad_deg. assert (QD : degToRad q_d = 115 / 1000) by apply rad_deg. assert (WC : degToRad w_c = 3 / 10) by apply rad_deg.
  split; [exact slider_ok|]. split; [exact sdev_opened|]. split; [reflexivity|]. split; [exact sdev_one|].
  split; [reflexivity|]. split; [exact movv_sled|]. split; [reflexivity|]. split.
  { eapply hcycle; [apply drift_runs|]. 3: eapply hcycle; [apply drift_runs|constructor].
    all: match goal with |- _ < ?x < _ => unfold x end; match goal with |- _ < radToDeg ?x < _ => pose proof (radians_small x ltac:(lra)); lra end. }
  split; [repeat constructor|]. unfold trace_of, drift_cycles. cbn [map fst snd concat]. rewrite app_nil_r.
  split; [apply Forall_app; split; apply drift_kdl; lra|]. split; [exact drift_start_served|].
  split; [apply through_app; exists slider; split; apply drift_served; try assumption; unfold w_c, w_d; f_equal; lra|].
  split; [exact visible_drift|].
  split; [apply reads; left; reflexivity|]. split; [rewrite <- rad_0 at 2; apply slider_stands|]. split; [apply regular_x|].
  split; [repeat apply Forall_cons; try apply Forall_nil; [exists true, [w_c], yes|exists true, [w_d], yes]; split; cbn; auto 14|].
  split; [repeat apply Forall_cons; try apply Forall_nil; intros q Q; apply drift_reads in Q; subst q; apply slider_faithful|].
  split. { split; [|split; exact I]. apply (slides_on _ _ _ q_c w_c 6 q_d (605 / 100)); try (unfold drift_c, drift_d, drift; sole; fail).
    - cbn [gain idle cmcPeriodMs]. rewrite Rabs_pos_eq; lra.
    - rewrite QC, QD, WC. lra. }
  split. { rewrite speed_drift. repeat apply Forall_cons; try apply Forall_nil; intros now In0.
    - assert (now = number 6) as -> by (revert In0; unfold drift_c, drift; sole). cbn. lra.
    - assert (now = number (605 / 100)) as -> by (revert In0; unfold drift_d, drift; sole). cbn. lra. }
  split; (split; [apply reads; left; reflexivity|]); [rewrite <- QC|rewrite <- QD]; apply slider_stands.
Qed.

(** *** With a gain of 3, which is accepted *)
Definition w_k : R := radToDeg (62 / 10).
Definition q_l : R := radToDeg (41 / 100).
Definition w_l : R := radToDeg (- (118 / 10)).
Definition keen_c : list event := drift (3 * (1000 / 50)) 6 q_c (1 / 10) (1 / 5) w_k.
Definition keen_l : list event := drift (3 * (1000 / 50)) (605 / 100) q_l (41 / 100) (21 / 100) w_l.
Definition keen_cycles : list entry := [(OCycle, keen_c, true); (OCycle, keen_l, true)].
Theorem gain_refuted : exists d ch v c s0 s xd tr s1 h s2 v2 t t' start e e',
  Screw.chain_ok ch /\ opened d ch [] v /\ numJoints c = nr_of_joints (sv_chain v) /\ one_per_joint d v /\
  history c s0 [(OSet VOCAB_CC_CONFIG_GAIN 3, [], true)] s /\ exec (movv c xd) s tr (Done true) s1 /\ history c s1 h s2 /\
  Forall (fun e => lets_go_on (fst (fst e)) /\ no_tool (fst (fst e))) h /\ Forall as_kdl (trace_of h) /\ served d v (tr ++ trace_of h) v2 /\ visible (twist_at xd 0) /\
  (exists g from, joints_read (numJoints c) tr g /\ stands v g from /\ In (Now, number start) tr /\
     off (numJoints c) v start (LineSpec.going from (twist_at xd 0)) t e /\ off (numJoints c) v start (LineSpec.going from (twist_at xd 0)) t' e') /\
  driven h t /\ driven h t' /\ solvable d (numJoints c) v t /\ solvable d (numJoints c) v t' /\
  obeys (numJoints c) v (fun h => h = IZR (cmcPeriodMs s) / 1000) 0 t t' /\ 0 < e /\ e' = 2 * e.
Proof.
  assert (QC : degToRad q_c = 1 / 10) by apply rad_deg. assert (QL : degToRad q_l = 41 / 100) by apply rad_deg. assert (WK : degToRad w_k = 62 / 10) by apply rad_deg.
  assert (SM : forall x, -12 < x < 12 -> -900 < radToDeg x < 900).
  { intros x X. unfold KinRep.radToDeg. pose proof PI2_3_2. assert (P : 3 < PI) by lra. assert (0 < 180 / PI) by (apply Rdiv_lt_0_compat; lra).
    assert (Y : 180 / PI < 60). { apply Rmult_lt_reg_r with PI; [lra|]. replace (180 / PI * PI) with 180 by (field; lra). lra. } nra. }
  exists sdev, slider_chain, slider, sled, idle, keen, (row (1 / 5)), drift_start, (drifting keen), keen_cycles, (drifting keen), slider, keen_c, keen_l, 5, (1 / 10), (1 / 5).
  change (twist_at (row (1 / 5)) 0) with (along_x (1 / 5)).
  split; [exact slider_ok|]. split; [exact sdev_opened|]. split; [reflexivity|]. split; [exact sdev_one|].
  split; [eapply hcons; [cbn [do_op]; unfold setParameter; ex|constructor]|].
  split; [exact movv_keen|]. split.
  { eapply hcycle; [apply drift_keen|]. 3: eapply hcycle; [apply drift_keen|constructor].
    all: match goal with |- _ < ?x < _ => unfold x end; match goal with |- -900 < _ < _ => apply SM; lra | |- _ < radToDeg ?x < _ => pose proof (radians_small x ltac:(lra)); lra end. }
  split; [repeat constructor|]. unfold trace_of, keen_cycles. cbn [map fst snd concat]. rewrite app_nil_r.
  split; [apply Forall_app; split; apply drift_kdl; lra|].
  split. { apply through_app. exists slider. split; [exact drift_start_served|]. apply through_app. exists slider. split; apply drift_served; try assumption; unfold w_k, w_l; f_equal; lra. }
  split; [exact visible_drift|].
  split. { exists [0], (at_x 0). split; [apply reads; left; reflexivity|]. split; [rewrite <- rad_0 at 2; apply slider_stands|]. split; [cbn; auto 8|].
    split; [exists [q_c], (at_x (1 / 10)), (number 6)|exists [q_l], (at_x (41 / 100)), (number (605 / 100))]; (split; [apply reads; left; reflexivity|]);
      (split; [rewrite <- ?QC, <- ?QL; apply slider_stands|]); (split; [cbn; auto 8|]); cbn [num number]; rewrite going_drift; unfold at_x, vsub; cbn [fp vx vy vz].
    - replace (0 - 0) with 0 by ring. rewrite norm_x_abs, Rabs_pos_eq; lra.
    - replace (0 - 0) with 0 by ring. rewrite norm_x_abs, Rabs_left; lra. }
  split; [exists true, [w_k], yes; split; cbn; auto 14|]. split; [exists true, [w_l], yes; split; cbn; auto 14|].
  split; [intros q Q; apply drift_reads in Q; subst q; apply slider_faithful|]. split; [intros q Q; apply drift_reads in Q; subst q; apply slider_faithful|].
  split; [|split; lra]. apply (slides_on _ _ _ q_c w_k 6 q_l (605 / 100)); try (unfold keen_c, keen_l, drift; sole; fail).
  - cbn. lra.
  - rewrite QC, QL, WK. lra.
Qed.
Example drift_on_time : 0 < gain idle < 2 /\
  (forall t t', [drift_c; drift_d] = [t; t'] -> obeys 1 slider (fun h => h = IZR (cmcPeriodMs idle) / 1000) 0 t t').
Proof.
  split; [cbn; lra|]. intros t t' [= <- <-].
  assert (QC : degToRad q_c = 1 / 10) by apply rad_deg. assert (QD : degToRad q_d = 115 / 1000) by apply rad_deg. assert (WC : degToRad w_c = 3 / 10) by apply rad_deg.
  apply (slides_on _ _ _ q_c w_c 6 q_d (605 / 100)); try (unfold drift_c, drift_d, drift; sole; fail); [cbn; lra|rewrite QC, QD, WC; lra].
Qed.
