(** Concrete runs of single commands: examples for the properties and counterexamples. *)
From Coq Require Import Reals ZArith List Bool Lra Lia.
From Verif Require Import Kdl KdlFacts KdlRot KdlRotFacts KinRepSpec Vocab Bcc BccSpec BccKdl BccLineSpec BccCmdSpec
  BccFacts BccFacts2 BccFacts5 BccExamples BccLineFacts2 BccLineExamples BccCmdFacts BccCmdFacts2 BccCmdFacts3 BccCmdFacts4.
Import ListNotations.
Open Scope R_scope.
Local Arguments to_int : simpl never.
Local Notation S := Datatypes.S.
Local Notation length := List.length.

Lemma read_one tr x : In (GetEncoders, give [x]) tr -> joints_read 1 tr [x].
Proof. intros H. exists (give [x]). split; [exact H|]. split; [reflexivity|]. split; [reflexivity|]. intros [|i] Hi; [reflexivity|lia]. Qed.
Lemma one_wide : wide one. Proof. intros [|j] H; cbn in *; [unfold margin; lra|lia]. Qed.
Lemma rail_complete : complete rail. Proof. repeat split. Qed.
Lemma rail_wide : wide rail. Proof. intros [|j] H; cbn in *; [unfold margin; lra|lia]. Qed.

(** ** A slider of two kilograms along the vertical; gravity is ten metres per second squared *)
Definition lifts (frame : Z) (q v w f tau : list R) : Prop := tau = [2 * (nth 0 w 0 + 10) - nth 2 f 0].
Definition torque_modes : list event := [(GetControlModes, mode 1 VOCAB_CM_TORQUE); (Sleep (1 / 10), yes); (GetControlModes, mode 1 VOCAB_CM_TORQUE)].
Definition floating : st := setCurrentState VOCAB_CC_GCMP_CONTROLLING idle.
Example gcmp_one : exec (gcmp one) idle torque_modes (Done true) floating.
Proof. ex. Qed.
Definition float : list event :=
  [(GetEncoders, give [1]); (GetEncoderSpeeds, give [0]); (GetEncoderAccelerations, give [0]); (GetControlModes, mode 1 VOCAB_CM_TORQUE);
   (InvDyn [1], give [2 * (0 + 10) - 0]); (SetRefTorques [2 * (0 + 10) - 0], yes)].
Example float_one : exec (run one) floating float (Done tt) floating.
Proof. ex. Qed.
Example gcmp_run : exec (gcmp one) idle torque_modes (Done true) floating /\ history one floating [(OCycle, float, true)] floating /\
  Forall (dynamics (numJoints one) lifts) float /\ In (SetRefTorques [2 * (0 + 10) - 0], yes) float.
Proof.
  split; [exact gcmp_one|]. split; [eapply hcycle; [exact float_one|constructor]|]. split; [|cbn; auto 9].
  repeat (apply Forall_cons; [first [exact I | split; reflexivity]|]); apply Forall_nil.
Qed.

Definition up5 : list R := [0; 0; 5; 0; 0; 0].
Definition up50 : list R := [0; 0; 50; 0; 0; 0].
Definition down (f : R) : list R := [-0; -0; - f; -0; -0; -0].
Definition pushing : st := setCurrentState VOCAB_CC_FORC_CONTROLLING (set_fd (down 5) idle).
Example forc_one : exec (forc one up5) idle torque_modes (Done true) pushing.
Proof. ex. Qed.
Definition push (f : R) : list event :=
  [(GetEncoders, give [1]); (GetEncoderSpeeds, give [0]); (GetEncoderAccelerations, give [3]); (GetControlModes, mode 1 VOCAB_CM_TORQUE);
   (InvDynForce [1] [0] [3] (down f) BASE_FRAME, give [2 * (3 + 10) - - f]); (SetRefTorques [2 * (3 + 10) - - f], yes)].
Example push_one : exec (run one) pushing (push 5) (Done tt) pushing.
Proof. ex. Qed.
Lemma push_dynamics f : Forall (dynamics (numJoints one) lifts) (push f).
Proof. repeat (apply Forall_cons; [first [exact I | split; reflexivity]|]); apply Forall_nil. Qed.
Example forc_run : exec (forc one up5) idle torque_modes (Done true) pushing /\ history one pushing [(OCycle, push 5, true)] pushing /\
  Forall (dynamics (numJoints one) lifts) (push 5) /\ In (SetRefTorques [2 * (3 + 10) - - 5], yes) (push 5).
Proof.
  split; [exact forc_one|]. split; [eapply hcycle; [exact push_one|constructor]|]. split; [apply push_dynamics|cbn; auto 9].
Qed.

(** a force that was refused is exerted *)
Definition pushing_hard : st := set_fd (down 50) pushing.
Lemma forc_refused : exec (forc one up50) pushing [(GetControlModes, no)] (Done false) pushing_hard.
Proof. ex. Qed.
Lemma push_hard : exec (run one) pushing_hard (push 50) (Done tt) pushing_hard.
Proof. ex. Qed.
Lemma force_refuted : exists c f g t1 t2 t3 s tau a, history c idle [(OForc f, t1, true); (OForc g, t2, false); (OCycle, t3, true)] s /\
  Forall (dynamics (numJoints c) lifts) (t1 ++ t2 ++ t3) /\ In (SetRefTorques tau, a) t3 /\
  exists q v w, joints_read (numJoints c) t3 q /\ speeds_read (numJoints c) t3 v /\ accelerations_read (numJoints c) t3 w /\
    (forall e, opposite f e -> ~ lifts BASE_FRAME q v w e tau) /\ (forall e, opposite g e -> lifts BASE_FRAME q v w e tau).
Proof.
  exists one, up5, up50, torque_modes, [(GetControlModes, no)], (push 50), pushing_hard, [2 * (3 + 10) - - 50], yes. split.
  { eapply hcons; [exact forc_one|]. eapply hcons; [exact forc_refused|]. eapply hcycle; [exact push_hard|constructor]. }
  split; [apply Forall_app; split; [repeat constructor|]; apply Forall_app; split; [repeat constructor|apply push_dynamics]|]. split; [cbn; auto 9|].
  exists [1], [0], [3]. split; [apply read_one; cbn; auto|].
  split; [exists (give [0]); split; [cbn; auto|]; split; [reflexivity|]; split; [reflexivity|]; intros [|i] Hi; [reflexivity|cbn in Hi; lia]|].
  split; [exists (give [3]); split; [cbn; auto|]; split; [reflexivity|]; split; [reflexivity|]; intros [|i] Hi; [reflexivity|cbn in Hi; lia]|].
  split; intros e (_ & N); unfold lifts; rewrite N; cbn; [intros [= X]; lra|reflexivity].
Qed.

(** ** Streaming *)
Definition rails_any (f : Z) (g q : list R) (ps : list frame) : Prop := on_rails q ps.
Definition posing : st := set_streaming VOCAB_CC_POSE idle.
Definition pose_trace (q x : R) : list event :=
  [(GetControlModes, mode 1 VOCAB_CM_POSITION_DIRECT); (GetEncoders, give [q]); (InvKin (row x) [q] BASE_FRAME, give [x]); (SetPositions [x], yes)].
Lemma pose_one : exec (pose rail (row 1)) posing (pose_trace 0 1) (Done tt) posing.
Proof. ex. Qed.
Lemma pose_solves q x : Forall (solves_in 1 rails_any) (pose_trace q x).
Proof. repeat (apply Forall_cons; [first [exact I | idtac]|]); try apply Forall_nil. intros _. split; [reflexivity|]. unfold rails_any, on_rails. apply poses_row. Qed.
Example pose_run : complete rail /\ wide rail /\ exec (pose rail (row 1)) posing (pose_trace 0 1) (Done tt) posing /\ Forall (solves_in (numJoints rail) rails_any) (pose_trace 0 1) /\
  currentState posing = VOCAB_CC_NOT_CONTROLLING /\ In (streamingCommand posing) [VOCAB_CC_POSE; VOCAB_CC_MOVI] /\ in_mode (numJoints rail) VOCAB_CM_POSITION_DIRECT (pose_trace 0 1) /\
  (exists h, history rail idle h posing).
Proof.
  split; [exact rail_complete|]. split; [exact rail_wide|]. split; [exact pose_one|]. split; [apply pose_solves|]. split; [reflexivity|]. split; [now left|]. split.
  { exists (mode 1 VOCAB_CM_POSITION_DIRECT). eexists. split; [reflexivity|]. split; [reflexivity|]. intros [|j] H; [reflexivity|cbn in H; lia]. }
  exists [(OSet VOCAB_CC_CONFIG_STREAMING_CMD (IZR VOCAB_CC_POSE),
    [(GetControlModes, mode 1 VOCAB_CM_POSITION_DIRECT); (Sleep (1 / 10), yes); (GetControlModes, mode 1 VOCAB_CM_POSITION_DIRECT)], true)].
  eapply hcons; [|constructor]. cbn [do_op]. unfold setParameter. rewrite to_int_Z by (vm_compute; split; discriminate). ex.
Qed.

Definition glides (f : Z) (q w : list R) (ts : list KdlRot.twist) : Prop := ts = map (fun v => Tw (V v 0 0) vzero) w.
Definition twist_trace : list event :=
  [(GetControlModes, mode 1 VOCAB_CM_VELOCITY); (GetEncoders, give [0]); (DiffInvKin [0] (row 4) BASE_FRAME, give [4]); (VelocityMove [4], yes)].
Lemma twist_rail : exec (twist one (row 4)) streaming twist_trace (Done tt) streaming.
Proof. ex. Qed.
Example twist_run : complete one /\ wide one /\ length (row 4) = (6 * 1)%nat /\ exec (twist one (row 4)) streaming twist_trace (Done tt) streaming /\ Forall (moves_as_asked (numJoints one) 1 glides) twist_trace /\
  currentState streaming = VOCAB_CC_NOT_CONTROLLING /\ streamingCommand streaming = VOCAB_CC_TWIST /\ in_mode (numJoints one) VOCAB_CM_VELOCITY twist_trace.
Proof.
  split; [exact one_complete|]. split; [exact one_wide|]. split; [reflexivity|]. split; [exact twist_rail|]. split.
  { repeat (apply Forall_cons; [first [exact I | split; reflexivity]|]); apply Forall_nil. }
  split; [reflexivity|]. split; [reflexivity|].
  exists (mode 1 VOCAB_CM_VELOCITY). eexists. split; [reflexivity|]. split; [reflexivity|]. intros [|j] H; [reflexivity|cbn in H; lia].
Qed.

Definition wrenching : st := set_streaming VOCAB_CC_WRENCH idle.
Definition wrench_trace : list event :=
  [(GetControlModes, mode 1 VOCAB_CM_TORQUE); (GetEncoders, give [1]); (GetEncoderSpeeds, give [0]); (GetEncoderAccelerations, give [3]);
   (InvDynForce [1] [0] [3] (down 5) BASE_FRAME, give [2 * (3 + 10) - - 5]); (SetRefTorques [2 * (3 + 10) - - 5], yes)].
Definition drop_trace : list event :=
  [(GetControlModes, mode 1 VOCAB_CM_TORQUE); (GetEncoders, give [1]); (GetEncoderSpeeds, no); (SetRefTorques [0], yes)].
Lemma wrench_one : exec (wrench one up5) wrenching wrench_trace (Done tt) wrenching.
Proof. ex. Qed.
Lemma wrench_drop : exec (wrench one up5) wrenching drop_trace (Done tt) wrenching.
Proof. ex. Qed.
Example wrench_run : complete one /\ exec (wrench one up5) wrenching wrench_trace (Done tt) wrenching /\ Forall (dynamics (numJoints one) lifts) wrench_trace /\
  currentState wrenching = VOCAB_CC_NOT_CONTROLLING /\ streamingCommand wrenching = VOCAB_CC_WRENCH /\ in_mode (numJoints one) VOCAB_CM_TORQUE wrench_trace.
Proof.
  split; [exact one_complete|]. split; [exact wrench_one|]. split.
  { repeat (apply Forall_cons; [first [exact I | split; reflexivity]|]); apply Forall_nil. }
  split; [reflexivity|]. split; [reflexivity|].
  exists (mode 1 VOCAB_CM_TORQUE). eexists. split; [reflexivity|]. split; [reflexivity|]. intros [|j] H; [reflexivity|cbn in H; lia].
Qed.
(** one reading that fails, and the robot is let fall *)
Lemma dropped : exists c f h s tr s' tau, complete c /\ history c idle h s /\ exec (wrench c f) s tr (Done tt) s' /\ motions tr = [SetRefTorques tau] /\
  exists q, joints_read (numJoints c) tr q /\ inside c q /\ forall v w e, (forall j, 0 <= nth j w 0) -> opposite f e -> lifts BASE_FRAME q v w e tau -> False.
Proof.
  exists one, up5, [(OSet VOCAB_CC_CONFIG_STREAMING_CMD (IZR VOCAB_CC_WRENCH), torque_modes, true)], wrenching, drop_trace, wrenching, [0].
  split; [exact one_complete|]. split.
  { eapply hcons; [|constructor]. cbn [do_op]. unfold setParameter. rewrite to_int_Z by (vm_compute; split; discriminate). ex. }
  split; [exact wrench_drop|]. split; [reflexivity|]. exists [1]. split; [apply read_one; cbn; auto|].
  split; [intros [|j] H; [unfold inside_at, margin; cbn; lra|cbn in H; lia]|].
  intros v w e W (_ & N) L. unfold lifts in L. rewrite N in L. cbn in L. injection L as L. specialize (W 0%nat). lra.
Qed.

(** ** Relative movements *)
Lemma speeds_one : computeIsocronousSpeeds one [0] [10] = Some ([10], true).
Proof.
  unfold computeIsocronousSpeeds. cbn. assert (A : Rabs (10 - 0) = 10) by (rewrite Rabs_pos_eq; lra).
  rewrite A. repeat (cbn [fst snd]; real1). cbn [map]. repeat f_equal. field.
Qed.
Local Arguments computeIsocronousSpeeds : simpl never.
Definition quarter_z : list R := [0; 0; 0; 0; 0; PI / 2].
Definition quarter_x : list R := [0; 0; 0; PI / 2; 0; 0].
Definition mixture : list R := [0 + 0; 0 + 0; 0 + 0; 0 + PI / 2; 0 + 0; PI / 2 + 0].
Definition asks (x y : list R) : list event := [(GetEncoders, give [0]); (FwdKin [0], give x); (GetEncoders, give [0]); (InvKin y [0] BASE_FRAME, give [10])].
Definition sets_off : list event :=
  [(GetRefSpeeds, give [10]); (SetRefSpeeds [10], yes);
   (GetControlModes, mode 1 VOCAB_CM_POSITION); (Sleep (1 / 10), yes); (GetControlModes, mode 1 VOCAB_CM_POSITION); (PositionMove [10], yes)].
Definition going : st := set_vmoStored [10] (setCurrentState VOCAB_CC_MOVJ_CONTROLLING idle).
Lemma relj_mixture : exec (relj one quarter_x) idle (asks quarter_z mixture ++ sets_off) (Done true) going.
Proof. unfold relj, movj. ex. rewrite speeds_one. ex. Qed.

Lemma eps_quarter t : 1 <= t -> kdl_eps <= t. Proof. pose proof eps_small. lra. Qed.
Lemma rot_quarter_z : rot_of (V 0 0 (PI / 2)) = M 0 (-1) 0 1 0 0 0 0 1.
Proof.
  replace (V 0 0 (PI / 2)) with (vscale (PI / 2) (V 0 0 1)) by (unfold vscale; cbn; f_equal; ring). pose proof PI_4.
  rewrite rot_of_scaled; [|unfold unit, dot; cbn; ring|apply eps_quarter; pose proof PI2_1; lra].
  unfold Rot2. rewrite cos_PI2, sin_PI2. apply mat_eq; cbn; ring.
Qed.
Lemma rot_quarter_x : rot_of (V (PI / 2) 0 0) = M 1 0 0 0 0 (-1) 0 1 0.
Proof.
  replace (V (PI / 2) 0 0) with (vscale (PI / 2) (V 1 0 0)) by (unfold vscale; cbn; f_equal; ring).
  rewrite rot_of_scaled; [|unfold unit, dot; cbn; ring|apply eps_quarter; pose proof PI2_1; lra].
  unfold Rot2. rewrite cos_PI2, sin_PI2. apply mat_eq; cbn; ring.
Qed.
Definition trace (m : mat) : R := m00 m + m11 m + m22 m.
Lemma trace_mixture : trace (rot_of (V (PI / 2) 0 (PI / 2))) < 0.
Proof.
  assert (Q : sqrt 2 * sqrt 2 = 2) by (apply sqrt_sqrt; lra). pose proof (sqrt_pos 2) as QP. pose proof PI2_1 as PP.
  assert (QL : 1.4 < sqrt 2 < 1.5) by (split; [apply Rsqr_incrst_0|apply Rsqr_incrst_0]; unfold Rsqr; lra).
  replace (V (PI / 2) 0 (PI / 2)) with (vscale (PI / 2 * sqrt 2) (V (sqrt 2 / 2) 0 (sqrt 2 / 2))).
  2:{ unfold vscale; cbn. f_equal; [|ring|]; replace (PI / 2 * sqrt 2 * (sqrt 2 / 2)) with (PI / 4 * (sqrt 2 * sqrt 2)) by field; rewrite Q; field. }
  rewrite rot_of_scaled; [|unfold unit, dot; cbn; nra|apply eps_quarter; nra].
  assert (C : cos (PI / 2 * sqrt 2) < - (1 / 2)).
  { replace (- (1 / 2)) with (cos (2 * (PI / 3))) by (rewrite cos_2PI3; field). apply cos_decreasing_1; nra. }
  unfold trace, Rot2. cbn. set (k := cos _) in *.
  replace (_ + _ + _) with (sqrt 2 * sqrt 2 / 2 * (1 - k) + 3 * k) by field. rewrite Q. lra.
Qed.
Lemma mixture_refuted : exists c d h s tr s' x y, history c idle h s /\ referenceFrame s = BASE_FRAME /\ exec (relj c d) s tr (Done true) s' /\
  (exists q a, joints_read (numJoints c) tr q /\ In (FwdKin q, a) tr /\ ok a = true /\ vals a = x) /\
  (exists q q' a, In (InvKin y q BASE_FRAME, a) tr /\ ok a = true /\ vals a = q' /\ motions tr = [PositionMove q']) /\
  fM (pose_at y 0) <> mm (fM (pose_at d 0)) (fM (pose_at x 0)) /\ fM (pose_at y 0) <> mm (fM (pose_at x 0)) (fM (pose_at d 0)).
Proof.
  exists one, quarter_x, [], idle, (asks quarter_z mixture ++ sets_off), going, quarter_z, mixture.
  split; [constructor|]. split; [reflexivity|]. split; [exact relj_mixture|].
  split; [exists [0], (give quarter_z); split; [apply read_one; cbn; auto|]; split; [cbn; auto|]; split; reflexivity|].
  split; [exists [0], [10], (give [10]); split; [cbn; auto 9|]; split; [reflexivity|]; split; reflexivity|].
  assert (Y : trace (fM (pose_at mixture 0)) < 0).
  { unfold pose_at. cbn. replace (V (0 + PI / 2) (0 + 0) (PI / 2 + 0)) with (V (PI / 2) 0 (PI / 2)) by (f_equal; ring). exact trace_mixture. }
  assert (X : fM (pose_at quarter_z 0) = M 0 (-1) 0 1 0 0 0 0 1) by exact rot_quarter_z.
  assert (D : fM (pose_at quarter_x 0) = M 1 0 0 0 0 (-1) 0 1 0) by exact rot_quarter_x.
  rewrite X, D. split; intros E; rewrite E in Y; unfold trace, mm in Y; cbn in Y; lra.
Qed.

Definition far : list R := [0 + 10; 0 + 0; 0 + 0; 0 + 0; 0 + 0; 0 + 0].
Definition slid : list event := asks (row 0) far ++ sets_off.
Lemma far_row : far = row 10. Proof. unfold far, row. repeat f_equal; ring. Qed.
Lemma relj_row : exec (relj one (row 10)) idle slid (Done true) going.
Proof. unfold slid, relj, movj. ex. rewrite speeds_one. ex. Qed.
Example relj_run : referenceFrame idle <> TCP_FRAME /\ exec (relj one (row 10)) idle slid (Done true) going /\
  Forall (solves_in (numJoints one) rails_any) slid /\ Forall (tells_poses 1 (map at_x)) slid /\ motions slid = [PositionMove [10]].
Proof.
  split; [discriminate|]. split; [exact relj_row|]. split; [|split; [|reflexivity]].
  - repeat (apply Forall_cons; [first [exact I | idtac]|]); try apply Forall_nil. intros _. split; [reflexivity|]. unfold rails_any, on_rails. rewrite far_row. apply poses_row.
  - repeat (apply Forall_cons; [first [exact I | idtac]|]); try apply Forall_nil. intros _. split; [reflexivity|]. apply poses_row.
Qed.
(** told in the frame of the tool, the same offset is that of the endpoint from where it is *)
Definition rails_from (f : Z) (g q : list R) (ps : list frame) : Prop := ps = map (fun i => at_x (nth i q 0 - nth i g 0)) (seq 0 (length q)).
Definition slid_tool : list event := [(GetEncoders, give [0]); (InvKin (row 10) [0] TCP_FRAME, give [10])] ++ sets_off.
Definition at_tool : st := set_frame TCP_FRAME idle.
Definition going_tool : st := set_vmoStored [10] (setCurrentState VOCAB_CC_MOVJ_CONTROLLING at_tool).
Lemma relj_row_tool : exec (relj one (row 10)) at_tool slid_tool (Done true) going_tool.
Proof. unfold relj, movj. ex. rewrite speeds_one. ex. Qed.
Example relj_tool_run : referenceFrame at_tool = TCP_FRAME /\ exec (relj one (row 10)) at_tool slid_tool (Done true) going_tool /\
  Forall (solves_in (numJoints one) rails_from) slid_tool /\ motions slid_tool = [PositionMove [10]].
Proof.
  split; [reflexivity|]. split; [exact relj_row_tool|]. split; [|reflexivity].
  repeat (apply Forall_cons; [first [exact I | idtac]|]); try apply Forall_nil. intros _. split; [reflexivity|]. unfold rails_from. rewrite poses_row. cbn.
  now replace (10 - 0) with 10 by ring.
Qed.
Example offset_run : sums [1; 2; 3; 0; 0; PI / 2] [1; 0; 0; 0; 0; - PI] [1 + 1; 2 + 0; 3 + 0; 0 + 0; 0 + 0; PI / 2 + - PI] /\
  aligned (rotation_at [1; 2; 3; 0; 0; PI / 2] 0) (rotation_at [1; 0; 0; 0; 0; - PI] 0).
Proof.
  split; [split; [cbn; lia|]; split; [reflexivity|]; intros j H; cbn in H; do 6 (destruct j as [|j]; [reflexivity|]); lia|].
  right. exists (V 0 0 1), (PI / 2), (- PI). split; [unfold unit, dot; cbn; ring|]. pose proof PI2_1. pose proof eps_small.
  split; [unfold rotation_at, vscale; cbn; f_equal; ring|]. split; [unfold rotation_at, vscale; cbn; f_equal; ring|].
  split; [right; rewrite Rabs_pos_eq; lra|]. split; right; rewrite Rabs_left; lra.
Qed.

(** ** Commands that are turned down *)
Definition staying : st := setCurrentState VOCAB_CC_MOVL_CONTROLLING (set_startTime 100 (set_trajectories [Line (row 0) (row 0) 10] idle)).
Lemma movl_stay : exec (movl rail 0 (row 0)) idle setting_off (Done true) staying.
Proof. ex. Qed.
Definition turned_down : list event := [(GetEncoders, give [0]); (FwdKin [0], give (row 0)); (GetControlModes, no)].
Lemma movl_refused : exec (movl rail 0 (row 1)) staying turned_down (Done false) sliding.
Proof. ex. Qed.
Lemma line_refuted : exists c x y t1 t2 t3 s p, history c idle [(OMovl 0 x, t1, true); (OMovl 0 y, t2, false); (OCycle, t3, true)] s /\
  Forall as_kdl (t1 ++ t2 ++ t3) /\ Forall (solves (numJoints c) on_rails) (t1 ++ t2 ++ t3) /\
  (exists q, joints_read (numJoints c) t1 q /\ In (FwdKin q, give x) t1) /\
  (exists q, motions t3 = [SetPositions q] /\ on_rails q [p]) /\ norm (vsub (fp p) (fp (pose_at x 0))) = 1 / 2.
Proof.
  exists rail, (row 0), (row 1), setting_off, turned_down, (slide 105 0 (1 / 2)), sliding, (at_x (1 / 2)). split.
  { eapply hcons; [exact movl_stay|]. eapply hcons; [exact movl_refused|]. eapply hcycle; [apply slides; cbn; lra|constructor]. }
  destruct (slide_kdl 105 0 (1 / 2) at_5) as (K1 & K2).
  split; [apply Forall_app; split; [repeat constructor|]; apply Forall_app; split; [repeat constructor|exact K1]|].
  split; [apply Forall_app; split; [repeat constructor|]; apply Forall_app; split; [repeat constructor|exact K2]|].
  split; [exists [0]; split; [apply read_one; cbn; auto|cbn; auto]|]. split; [exists [1 / 2]; split; reflexivity|].
  rewrite pose_row. unfold at_x, vsub. cbn. replace (1 / 2 - 0) with (1 / 2) by ring. replace (0 - 0) with 0 by ring. rewrite norm_x by lra. reflexivity.
Qed.
Definition lost : list event := [(GetEncoders, give [0]); (InvKin (row 1) [0] BASE_FRAME, no)].
Example rejected_run : begins (OMovj (row 1)) = Some VOCAB_CC_MOVJ_CONTROLLING /\ exec (do_op one (OMovj (row 1))) gliding lost (Done false) gliding.
Proof. split; [reflexivity|]. cbn [do_op]. ex. Qed.
Example accepted_run : begins (OForc up5) = Some VOCAB_CC_FORC_CONTROLLING /\
  exec (do_op one (OForc up5)) gliding torque_modes (Done true) (setCurrentState VOCAB_CC_FORC_CONTROLLING (set_fd (down 5) gliding)).
Proof. split; [reflexivity|]. cbn [do_op]. ex. Qed.

(** told to go to where it is, a robot that glides glides on *)
Lemma speeds_none : computeIsocronousSpeeds one [1] [1] = Some ([0], false).
Proof.
  unfold computeIsocronousSpeeds. cbn. assert (A : Rabs (1 - 1) = 0) by (replace (1 - 1) with 0 by ring; apply Rabs_R0).
  rewrite A. repeat (cbn [fst snd]; real1). reflexivity.
Qed.
Definition there : list event := [(GetEncoders, give [1]); (InvKin (row 1) [1] BASE_FRAME, give [1])].
Lemma movj_there : exec (movj one (row 1)) gliding there (Done true) gliding.
Proof. unfold movj. ex. rewrite speeds_none. ex. Qed.
Lemma glides_on : exists c v x t1 t2 t3 s w, complete c /\ history c idle [(OMovv v, t1, true); (OMovj x, t2, true); (OCycle, t3, true)] s /\
  Forall (fun e => ok (snd e) = true) (t1 ++ t2 ++ t3) /\ motions t3 = [VelocityMove w] /\ nth 0 w 0 <> 0 /\ currentState s = VOCAB_CC_MOVV_CONTROLLING.
Proof.
  exists one, [1; 0; 0; 0; 0; 0], (row 1), velocity_start, there, (glide true true), gliding, [4]. split; [exact one_complete|]. split.
  { eapply hcons; [exact movv_one|]. eapply hcons; [exact movj_there|]. eapply hcycle; [apply cycle_one|constructor]. }
  split; [repeat constructor|]. split; [reflexivity|]. split; [cbn; lra|reflexivity].
Qed.

(** ** Joint limits *)
Example inside_run : exec (do_op one (ORelj (row 10))) idle slid (Done true) going /\ Forall (solves_inside one) slid /\ In (PositionMove [10], yes) slid.
Proof.
  split; [exact relj_row|]. split; [|cbn; auto 12]. repeat (apply Forall_cons; [first [exact I | idtac]|]); try apply Forall_nil.
  intros _ [|j] H; [unfold inside_at, margin; cbn; lra|cbn in H; lia].
Qed.
Lemma not_inside : ~ inside one [200]. Proof. intros H. specialize (H 0%nat ltac:(cbn; lia)). unfold inside_at, margin in H. cbn in H. lra. Qed.
Lemma speeds_out : computeIsocronousSpeeds one [0] [200] = Some ([10], true).
Proof.
  unfold computeIsocronousSpeeds. cbn. assert (A : Rabs (200 - 0) = 200) by (rewrite Rabs_pos_eq; lra).
  rewrite A. repeat (cbn [fst snd]; real1). cbn [map]. repeat f_equal. field.
Qed.
Definition out_of_reach : list event :=
  [(GetEncoders, give [0]); (InvKin (row 200) [0] BASE_FRAME, give [200]); (GetRefSpeeds, give [10]); (SetRefSpeeds [10], yes);
   (GetControlModes, mode 1 VOCAB_CM_POSITION); (Sleep (1 / 10), yes); (GetControlModes, mode 1 VOCAB_CM_POSITION); (PositionMove [200], yes)].
Lemma movj_out : exec (movj one (row 200)) idle out_of_reach (Done true) going.
Proof. unfold movj. ex. rewrite speeds_out. ex. Qed.
Lemma movj_beyond : exists c x tr s' q, complete c /\ wide c /\ exec (do_op c (OMovj x)) idle tr (Done true) s' /\
  (exists q0, joints_read (numJoints c) tr q0 /\ inside c q0) /\ motions tr = [PositionMove q] /\ ~ inside c q.
Proof.
  exists one, (row 200), out_of_reach, going, [200]. split; [exact one_complete|]. split; [exact one_wide|]. split; [exact movj_out|].
  split; [exists [0]; split; [apply read_one; cbn; auto|intros [|j] H; [unfold inside_at, margin; cbn; lra|cbn in H; lia]]|]. split; [reflexivity|exact not_inside].
Qed.
Definition hurl : list event := [(GetControlModes, mode 1 VOCAB_CM_POSITION_DIRECT); (GetEncoders, give [0]); (InvKin (row 200) [0] BASE_FRAME, give [200]); (SetPositions [200], yes)].
Lemma pose_out : exec (pose one (row 200)) posing hurl (Done tt) posing.
Proof. ex. Qed.
Lemma pose_beyond : exists c x h s tr s' q, complete c /\ wide c /\ history c idle h s /\ exec (pose c x) s tr (Done tt) s' /\
  (exists q0, joints_read (numJoints c) tr q0 /\ inside c q0) /\ motions tr = [SetPositions q] /\ ~ inside c q.
Proof.
  exists one, (row 200), [(OSet VOCAB_CC_CONFIG_STREAMING_CMD (IZR VOCAB_CC_POSE),
    [(GetControlModes, mode 1 VOCAB_CM_POSITION_DIRECT); (Sleep (1 / 10), yes); (GetControlModes, mode 1 VOCAB_CM_POSITION_DIRECT)], true)], posing, hurl, posing, [200].
  split; [exact one_complete|]. split; [exact one_wide|]. split.
  { eapply hcons; [|constructor]. cbn [do_op]. unfold setParameter. rewrite to_int_Z by (vm_compute; split; discriminate). ex. }
  split; [exact pose_out|].
  split; [exists [0]; split; [apply read_one; cbn; auto|intros [|j] H; [unfold inside_at, margin; cbn; lra|cbn in H; lia]]|]. split; [reflexivity|exact not_inside].
Qed.
