(** Concrete movements with velocity commands: examples for the properties and counterexamples. *)
From Coq Require Import Reals ZArith List Bool Lra Lia.
From Verif Require KinRep.
From Verif Require Import Kdl KdlFacts KdlRot KdlRotFacts KinRepSpec AsibotSpec KdlTraj LineSpec LineFacts LineFacts2 LineFacts3 KeyboardFacts7 Vocab Bcc BccSpec BccKdl BccLineSpec
  BccFacts BccFacts2 BccFacts5 BccExamples BccLineFacts2 BccLineFacts3 BccLineExamples.
Import ListNotations.
Open Scope R_scope.
Local Notation S := Datatypes.S.
Local Notation length := List.length.
Local Notation vectorToFrame := KinRep.vectorToFrame.
Local Notation frameToVector := KinRep.frameToVector.
Local Notation vectorToTwist := KinRep.vectorToTwist.
Local Notation twistToVector := KinRep.twistToVector.
Local Notation on_line := BccLineSpec.on_line.

(** ** Along a line *)
(** a joint that slides along the x axis *)
Definition slides_at (f : Z) (q w : list R) (vs : list KdlRot.twist) : Prop := f = BASE_FRAME /\ vs = map (fun v => Tw (V v 0 0) vzero) w.
Lemma vel_5 : line_vel (at_x 0) (at_x 1) 10 (105 - 100) = Some (Tw (V (1 / 5) 0 0) vzero).
Proof.
  unfold line_vel, line_profile. assert (P : path_line (at_x 0) (at_x 1) 1 = Path (at_x 0) (V 1 0 0) (V 0 0 1) 1 1 0).
  { unfold path_line, mk_path, at_x, vsub. cbn [fM fp vx vy vz]. replace (1 - 0) with 1 by ring. replace (0 - 0) with 0 by ring. rewrite norm_x, normalize_x by lra.
    replace (mm (mT mid) mid) with mid by (unfold mm, mT, mid; cbn; f_equal; ring). rewrite GetRotAngle_id. cbn [fst snd].
    replace (Rltb 1 kdl_eps) with false by (symmetry; apply Rltb_false; pose proof eps_small; lra).
    replace (Reqb 0 0) with true by (symmetry; apply Reqb_true; reflexivity). cbn [negb andb]. rewrite Reqb_of by lra. cbn. f_equal. field. }
  rewrite P. cbn [pt_len]. pose proof q10_sq as Q2. pose proof q10_bounds as QB.
  unfold trap_duration, trap_set. replace (Rltb (1 - 0) 0) with false by (symmetry; apply Rltb_false; lra). cbv zeta.
  replace (1 * 10 * (10 / 10 * (10 / 10)) / 2) with 5 by field. replace ((1 - 0 - 2 * 5) / (1 * 10)) with (- (9 / 10)) by field.
  replace (Rltb 0 (- (9 / 10))) with false by (symmetry; apply Rltb_false; lra). replace ((1 - 0) / 1 / 10) with (1 / 10) by field. fold q10. cbn [tp_d tp_start tp_end tp_t1 tp_t2 tp_a1 tp_a2 tp_a3 tp_b1 tp_b2 tp_b3 tp_c1 tp_c2 tp_c3].
  rewrite Reqb_of by lra. replace (Rltb 1 (q10 * 2 / 10)) with false by (symmetry; apply Rltb_false; lra). cbn [option_map].
  assert (T1 : stretch (q10 * 2 / 10) (Some q10) = Some 5). { unfold stretch. rewrite Reqb_of by lra. f_equal. field. lra. }
  unfold trap_vel. cbn [tp_start tp_t1 tp_t2 tp_d tp_end tp_a1 tp_a2 tp_a3 tp_b2 tp_b3 tp_c1 tp_c2 tp_c3]. rewrite T1. cbn [below].
  replace (Rltb (105 - 100) 0) with false by (symmetry; apply Rltb_false; lra). replace (Rltb (105 - 100) 5) with false by (symmetry; apply Rltb_false; lra).
  replace (Rleb (105 - 100) 10) with true by (symmetry; apply Rleb_true; lra).
  f_equal. unfold path_vel. cbn [pt_start pt_dir pt_axis pt_lin pt_rot fM at_x]. f_equal; unfold vscale, mv, vzero; cbn; f_equal; nra.
Qed.
Definition line_start : list event :=
  [(GetEncoders, give [0]); (FwdKin [0], give (row 0)); (GetControlModes, mode 1 VOCAB_CM_VELOCITY); (Sleep (1 / 10), yes);
   (GetControlModes, mode 1 VOCAB_CM_VELOCITY); (Now, number 100)].
Example movl_one : exec (movl one 0 (row 1)) idle line_start (Done true) sliding.
Proof. ex. Qed.
(** halfway: ten centimetres behind, at the greatest velocity *)
Definition steer : list event :=
  [(GetEncoders, give [0.4]); (GetEncoderSpeeds, give [0]); (GetEncoderAccelerations, give [0]); (GetControlModes, mode 1 VOCAB_CM_VELOCITY);
   (Now, number 105); (TrajDuration to_one, number 10); (TrajPos to_one (105 - 100), give (row (1 / 2))); (TrajVel to_one (105 - 100), give (row (1 / 5)));
   (FwdKin [0.4], give (row 0.4)); (PoseDiff (row (1 / 2)) (row 0.4), give (row 0.1));
   (DiffInvKin [0.4] [0.1 * (1 / 20 * (1000 / 50)) + 1 / 5; 0 * (1 / 20 * (1000 / 50)) + 0; 0 * (1 / 20 * (1000 / 50)) + 0; 0 * (1 / 20 * (1000 / 50)) + 0;
      0 * (1 / 20 * (1000 / 50)) + 0; 0 * (1 / 20 * (1000 / 50)) + 0] BASE_FRAME, give [0.3]); (VelocityMove [0.3], yes)].
Lemma steers : exec (run one) sliding steer (Done tt) sliding.
Proof. ex. Qed.
Definition steering : list entry := [(OCycle, steer, true); (OStat, [(GetEncoders, give [0.4]); (Now, number 106); (FwdKin [0.4], give (row 0.4))], true)].
Lemma twists_six a b d e f g : twists [a; b; d; e; f; g] = [Tw (V a b d) (V e f g)].
Proof. reflexivity. Qed.
Example movl_one_run : usePosdMovl one = false /\ 0 < duration idle /\ exec (movl one 0 (row 1)) idle line_start (Done true) sliding /\
  history one sliding steering sliding /\ Forall (fun e => lets_go_on (fst (fst e))) steering /\
  Forall as_kdl (trace_of steering) /\ Forall (moves_as_asked (numJoints one) 1 slides_at) (trace_of steering) /\
  from_to 1 idle (row 1) line_start (row 0) (row 1) /\ (forall i, (i < length (row 1) / 6)%nat -> measurable (pose_at (row 0) i) (pose_at (row 1) i)) /\
  motion (VelocityMove [0.3]) = true /\ In (VelocityMove [0.3], yes) steer.
Proof.
  split; [reflexivity|]. split; [cbn; lra|]. split; [exact movl_one|]. split.
  { eapply hcycle; [apply steers|]. eapply hcons; [cbn [do_op]; ex|constructor]. }
  split; [repeat constructor|]. unfold trace_of, steering. cbn [map fst snd concat].
  split; [apply Forall_app; split; [|repeat constructor]|]; [|split; [apply Forall_app; split; [|repeat constructor]|]].
  - unfold steer. repeat (apply Forall_cons; [first [exact I | exact takes_kdl | idtac]|]); try apply Forall_nil.
    + apply (row_kdl _ (1 / 2)); [rewrite at_5; congruence|reflexivity].
    + intros w E. rewrite !row_pose, vel_5 in E. injection E as <-. reflexivity.
  - unfold steer. repeat (apply Forall_cons; [first [exact I | idtac]|]); try apply Forall_nil; [reflexivity|].
    intros _. split; [reflexivity|]. split; [reflexivity|]. rewrite twists_six. cbn. unfold vzero. repeat f_equal; lra.
  - split. { split; [|split; [reflexivity|discriminate]]. exists [0], (give (row 0)). split; [|split; [cbn; auto|split; reflexivity]].
      exists (give [0]). split; [cbn; auto|]. split; [reflexivity|]. split; [reflexivity|]. intros [|i] H; [reflexivity|cbn in H; lia]. }
    split. { intros i H. cbn in H. destruct i as [|i]; [|lia]. rewrite !pose_row. exact apart_x. }
    split; [reflexivity|cbn; auto 15].
Qed.

(** ** At constant velocity *)
Definition along_x : KdlRot.twist := Tw (V 1 0 0) vzero.
Lemma visible_x : visible along_x.
Proof.
  unfold visible, along_x, speed. cbn [t_vel t_rot]. rewrite norm_of_zero, norm_x by lra. pose proof eps_small. split; [right; lra|]. split; [left; reflexivity|].
  rewrite Rmax_left; lra.
Qed.
Lemma speed_x : speed along_x = 1.
Proof. unfold speed, along_x. cbn [t_vel t_rot]. rewrite norm_of_zero, norm_x by lra. apply Rmax_left. lra. Qed.
Lemma going_x t : going (at_x 0) along_x t = at_x t.
Proof.
  unfold going, along_x, at_x. cbn [t_vel t_rot fM fp]. rewrite norm_of_zero, Rmult_0_r. f_equal; [|unfold vadd, vscale; cbn; f_equal; ring].
  unfold Rot. rewrite Rot2_zero. apply mm_id_l.
Qed.
Lemma rigid_x x : rigid (at_x x). Proof. apply rot_id. Qed.
(** a cycle at the time [now], the robot at [q] *)
Definition cruise (now q x v w : R) : list event :=
  [(GetEncoders, give [q]); (GetEncoderSpeeds, give [0]); (GetEncoderAccelerations, give [0]);
   (GetControlModes, mode 1 VOCAB_CM_VELOCITY); (Now, number now); (FwdKin [q], give (row q));
   (TrajPos path (now - 5), give (row x)); (TrajVel path (now - 5), give (row v));
   (PoseDiff (row x) (row q), give (row (x - q)));
   (DiffInvKin [q] [(x - q) * (1/20 * (1000 / 50)) + v; 0 * (1 / 20 * (1000 / 50)) + 0; 0 * (1 / 20 * (1000 / 50)) + 0; 0 * (1 / 20 * (1000 / 50)) + 0;
      0 * (1 / 20 * (1000 / 50)) + 0; 0 * (1 / 20 * (1000 / 50)) + 0] BASE_FRAME, give [w]);
   (VelocityMove [w], yes)].
Lemma cruises now q x v w : -99 <= q <= 99 -> -9 <= w <= 9 -> exec (run one) gliding (cruise now q x v w) (Done tt) gliding.
Proof. intros H W. ex. Qed.
Lemma cruise_kdl now q x v w : along_pos (at_x 0) along_x (now - 5) = at_x x -> along_vel (at_x 0) along_x (now - 5) = Tw (V v 0 0) vzero -> w = x - q + v ->
  Forall as_kdl (cruise now q x v w) /\ Forall (moves_as_asked 1 1 slides_at) (cruise now q x v w) /\ Forall tells_equal (cruise now q x v w).
Proof.
  intros P W ->. unfold cruise. split; [|split]; repeat (apply Forall_cons; [first [exact I | idtac]|]); try apply Forall_nil.
  - cbn [as_kdl path]. change (vectorToTwist [1; 0; 0; 0; 0; 0]) with along_x. change [0; 0; 0; 0; 0; 0] with (row 0). rewrite row_pose, P, x_row. reflexivity.
  - cbn [as_kdl path]. change (vectorToTwist [1; 0; 0; 0; 0; 0]) with along_x. change [0; 0; 0; 0; 0; 0] with (row 0). rewrite row_pose, W. reflexivity.
  - reflexivity.
  - intros _. split; [reflexivity|]. split; [reflexivity|]. rewrite twists_six. cbn. unfold vzero. f_equal. f_equal; f_equal; lra.
  - intros E j. rewrite !poses_row in E. assert (X : x = q) by (injection E; auto). subst. cbn. do 6 (destruct j as [|j]; [lra|]). destruct j; reflexivity.
Qed.
Lemma start_x : starts_at 1 velocity_start (row 0).
Proof.
  exists [0], (give (row 0)). split; [|split; [cbn; auto|split; reflexivity]].
  exists (give [0]). split; [cbn; auto|]. split; [reflexivity|]. split; [reflexivity|]. intros [|i] H; [reflexivity|lia].
Qed.
(** two seconds later the robot is ten centimetres behind *)
Definition cruising : list entry := [(OCycle, cruise 7 1.9 2 1 1.1, true); (OGet VOCAB_CC_CONFIG_GAIN, [], true)].
Example movv_one_run : exec (movv one (row 1)) idle velocity_start (Done true) gliding /\
  history one gliding cruising gliding /\ Forall (fun e => lets_go_on (fst (fst e))) cruising /\
  Forall as_kdl (trace_of cruising) /\ Forall (moves_as_asked (numJoints one) 1 slides_at) (trace_of cruising) /\
  (forall i, (i < 1)%nat -> visible (twist_at (row 1) i)) /\ starts_at 1 velocity_start (row 0) /\
  (7 - 5) * speed (twist_at (row 1) 0) <= 10 /\ motion (VelocityMove [1.1]) = true /\ In (VelocityMove [1.1], yes) (cruise 7 1.9 2 1 1.1).
Proof.
  assert (K : Forall as_kdl (cruise 7 1.9 2 1 1.1) /\ Forall (moves_as_asked 1 1 slides_at) (cruise 7 1.9 2 1 1.1) /\ Forall tells_equal (cruise 7 1.9 2 1 1.1)).
  { destruct (along_going (at_x 0) along_x (7 - 5) (rigid_x 0) visible_x ltac:(lra) ltac:(rewrite speed_x; lra)) as (A & B).
    apply cruise_kdl; [rewrite A, going_x; f_equal; lra|exact B|lra]. }
  destruct K as (K1 & K2 & _). split; [exact movv_one|]. split.
  { eapply hcycle; [apply cruises; lra|]. eapply hcons; [cbn [do_op]; ex|constructor]. }
  split; [repeat constructor|]. unfold trace_of, cruising. cbn [map fst snd concat]. rewrite app_nil_r.
  split; [exact K1|]. split; [exact K2|].
  split. { intros i H. assert (i = 0)%nat as -> by lia. exact visible_x. }
  split; [exact start_x|]. split. { change (twist_at (row 1) 0) with along_x. rewrite speed_x. lra. }
  split; [reflexivity|cbn; auto 15].
Qed.

(** *** After ten units of path *)
(** the robot moves exactly as asked; eleven seconds later it is told to go back *)
Lemma movv_far_refuted : exists c xd s tr s1 t s2 from start now q cur w a moves,
  exec (movv c xd) s tr (Done true) s1 /\ referenceFrame s = BASE_FRAME /\ length xd = 6%nat /\ visible (twist_at xd 0) /\ starts_at (numJoints c) tr from /\ In (Now, start) tr /\
  history c s1 [(OCycle, t, true)] s2 /\ Forall as_kdl t /\ Forall (moves_as_asked (numJoints c) 1 moves) t /\ Forall tells_equal t /\
  In (Now, now) t /\ joints_read (numJoints c) t q /\ In (FwdKin q, cur) t /\ ok cur = true /\
  0 <= num now - num start /\ poses (vals cur) = [going (pose_at from 0) (twist_at xd 0) (num now - num start)] /\
  In (VelocityMove w, a) t /\ (exists v, moves BASE_FRAME q w [v] /\ t_vel v = vscale (-1) (t_vel (twist_at xd 0))) /\ ~ moves BASE_FRAME q w [twist_at xd 0].
Proof.
  destruct (along_over (at_x 0) along_x (16 - 5) (rigid_x 0) visible_x ltac:(rewrite speed_x; lra) ltac:(lra)) as (A & B).
  assert (K : Forall as_kdl (cruise 16 11 10 0 (-1)) /\ Forall (moves_as_asked 1 1 slides_at) (cruise 16 11 10 0 (-1)) /\ Forall tells_equal (cruise 16 11 10 0 (-1))).
  { apply cruise_kdl; [rewrite A, speed_x, going_x; f_equal; lra|exact B|lra]. }
  destruct K as (K1 & K2 & K3).
  exists one, (row 1), idle, velocity_start, gliding, (cruise 16 11 10 0 (-1)), gliding, (row 0), (number 5), (number 16), [11], (give (row 11)), [-1], yes, slides_at.
  split; [exact movv_one|]. split; [reflexivity|]. split; [reflexivity|]. split; [exact visible_x|]. split; [exact start_x|]. split; [cbn; auto 9|].
  split; [eapply hcycle; [apply cruises; lra|constructor]|]. split; [exact K1|]. split; [exact K2|]. split; [exact K3|].
  split; [cbn; auto 9|]. split. { exists (give [11]). split; [cbn; auto|]. split; [reflexivity|]. split; [reflexivity|]. intros [|i] H; [reflexivity|cbn in H; lia]. }
  split; [cbn; auto 9|]. split; [reflexivity|]. split; [cbn; lra|]. split.
  { cbn [vals give num number]. rewrite poses_row, pose_row. change (twist_at (row 1) 0) with along_x. rewrite going_x. do 2 f_equal. lra. }
  split; [cbn; auto 15|]. change (twist_at (row 1) 0) with along_x. split.
  - exists (Tw (V (-1) 0 0) vzero). split; [split; reflexivity|]. unfold along_x, vscale. cbn. f_equal; ring.
  - intros (_ & E). cbn in E. assert (E2 : vx (t_vel along_x) = -1) by (injection E; auto). cbn in E2. lra.
Qed.

(** *** Velocities seen from the tool *)
(** a tool turned half a turn about the z axis, that slides along its own x axis *)
Definition half : mat := M (-1) 0 0 0 (-1) 0 0 0 1.
Definition slid (q : R) : frame := F half (V (- q) 0 0).
Definition slides_tool (f : Z) (q w : list R) (vs : list KdlRot.twist) : Prop := f = TCP_FRAME /\ vs = map (fun v => Tw (V v 0 0) vzero) w.
Lemma half_rot : rotation_matrix half.
Proof. unfold rotation_matrix, half, mm, mT, mid, det. cbn. split; [f_equal; ring|ring]. Qed.
Lemma half_regular : regular_log half.
Proof. right. repeat split. Qed.
Lemma slid_written q : poses (frameToVector (slid q)) = [slid q].
Proof. unfold poses. cbn [seq map length frameToVector KinRep.frameToVector Nat.div Nat.divmod fst]. rewrite pose_written; [reflexivity|exact half_rot|exact half_regular]. Qed.
Definition in_tool : st := set_frame TCP_FRAME idle.
(** the poses are any numbers *)
Definition tool_start (x y z a b d : R) : list event :=
  [(GetEncoders, give [0]); (FwdKin [0], give [x; y; z; a; b; d]);
   (GetControlModes, mode 1 VOCAB_CM_VELOCITY); (Sleep (1 / 10), yes); (GetControlModes, mode 1 VOCAB_CM_VELOCITY); (Now, number 5)].
Definition tool_path (x y z a b d : R) : traj := Along [x; y; z; a; b; d] (row 1).
Definition tool_gliding (x y z a b d : R) : st := setCurrentState VOCAB_CC_MOVV_CONTROLLING (set_startTime 5 (set_trajectories [tool_path x y z a b d] in_tool)).
Lemma movv_tool x y z a b d : exec (movv one (row 1)) in_tool (tool_start x y z a b d) (Done true) (tool_gliding x y z a b d).
Proof. ex. Qed.
Definition tool_cruise (t : traj) (cur des : list R) : list event :=
  [(GetEncoders, give [1]); (GetEncoderSpeeds, give [0]); (GetEncoderAccelerations, give [0]);
   (GetControlModes, mode 1 VOCAB_CM_VELOCITY); (Now, number 6); (FwdKin [1], give cur);
   (TrajPos t (6 - 5), give des); (TrajVel t (6 - 5), give (row 1));
   (PoseDiff des cur, give (row 2));
   (DiffInvKin [1] [2 * (1/20 * (1000 / 50)) + 1; 0 * (1 / 20 * (1000 / 50)) + 0; 0 * (1 / 20 * (1000 / 50)) + 0; 0 * (1 / 20 * (1000 / 50)) + 0;
      0 * (1 / 20 * (1000 / 50)) + 0; 0 * (1 / 20 * (1000 / 50)) + 0] TCP_FRAME, give [3]);
   (VelocityMove [3], yes)].
Lemma tool_cruises x y z a b d cur des : exec (run one) (tool_gliding x y z a b d) (tool_cruise (tool_path x y z a b d) cur des) (Done tt) (tool_gliding x y z a b d).
Proof. ex. Qed.
(** moving exactly as asked, at one metre per second along its x axis, it is told to go at three *)
Lemma movv_tool_refuted : exists c xd s tr s1 t s2 from start now q cur des e w a moves,
  exec (movv c xd) s tr (Done true) s1 /\ referenceFrame s = TCP_FRAME /\ length xd = 6%nat /\ visible (twist_at xd 0) /\ t_rot (twist_at xd 0) = vzero /\
  starts_at (numJoints c) tr from /\ In (Now, start) tr /\
  history c s1 [(OCycle, t, true)] s2 /\ Forall as_kdl t /\ Forall (moves_as_asked (numJoints c) 1 moves) t /\ Forall tells_equal t /\
  In (Now, now) t /\ joints_read (numJoints c) t q /\ In (FwdKin q, cur) t /\ ok cur = true /\ 0 <= num now - num start <= 1 /\
  In (PoseDiff des (vals cur), e) t /\ t_vel (twist_at (vals e) 0) = vsub (fp (pose_at des 0)) (fp (pose_at (vals cur) 0)) /\
  pose_at (vals cur) 0 = F (fM (pose_at from 0)) (vadd (fp (pose_at from 0)) (mv (fM (pose_at from 0)) (vscale (num now - num start) (t_vel (twist_at xd 0))))) /\
  In (VelocityMove w, a) t /\ (exists v, moves TCP_FRAME q w [v] /\ t_vel v = vscale 3 (t_vel (twist_at xd 0))) /\ ~ moves TCP_FRAME q w [twist_at xd 0].
Proof.
  assert (W0 : forall q, frameToVector (slid q) = [vx (fp (slid q)); vy (fp (slid q)); vz (fp (slid q)); vx (GetRot half); vy (GetRot half); vz (GetRot half)]) by reflexivity.
  assert (P0 : forall q, pose_at (frameToVector (slid q)) 0 = slid q) by (intros q; apply pose_written; [exact half_rot|exact half_regular]).
  assert (RG : rigid (slid 0)) by exact half_rot.
  destruct (along_going (slid 0) along_x (6 - 5) RG visible_x ltac:(lra) ltac:(rewrite speed_x; lra)) as (A & B).
  assert (G : going (slid 0) along_x (6 - 5) = slid (-1)).
  { unfold going, along_x, slid. cbn [t_vel t_rot fM fp]. rewrite norm_of_zero, Rmult_0_r. f_equal; [|unfold vadd, vscale; cbn; f_equal; ring].
    unfold Rot. rewrite Rot2_zero. apply mm_id_l. }
  rewrite G in A.
  set (p0 := fp (slid 0)). set (g := GetRot half). set (T := tool_path (vx p0) (vy p0) (vz p0) (vx g) (vy g) (vz g)).
  set (t := tool_cruise T (frameToVector (slid 1)) (frameToVector (slid (-1)))).
  exists one, (row 1), in_tool, (tool_start (vx p0) (vy p0) (vz p0) (vx g) (vy g) (vz g)), (tool_gliding (vx p0) (vy p0) (vz p0) (vx g) (vy g) (vz g)), t,
    (tool_gliding (vx p0) (vy p0) (vz p0) (vx g) (vy g) (vz g)), (frameToVector (slid 0)), (number 5), (number 6), [1], (give (frameToVector (slid 1))), (frameToVector (slid (-1))), (give (row 2)), [3], yes, slides_tool.
  change (twist_at (row 1) 0) with along_x. rewrite P0.
  split; [apply movv_tool|]. split; [reflexivity|]. split; [reflexivity|]. split; [exact visible_x|]. split; [reflexivity|].
  split. { exists [0], (give (frameToVector (slid 0))). split; [|split; [right; left; reflexivity|split; reflexivity]].
    exists (give [0]). split; [left; reflexivity|]. split; [reflexivity|]. split; [reflexivity|]. intros [|i] H; [reflexivity|cbn in H; lia]. }
  split; [unfold tool_start; cbn; auto 9|].
  split; [eapply hcycle; [apply tool_cruises|constructor]|].
  split. { unfold t, tool_cruise. repeat (apply Forall_cons; [first [exact I | idtac]|]); try apply Forall_nil.
    - unfold T, tool_path. cbn [as_kdl vals give]. change [vx p0; vy p0; vz p0; vx g; vy g; vz g] with (frameToVector (slid 0)). change (vectorToTwist (row 1)) with along_x.
      change (vectorToFrame (frameToVector (slid 0))) with (pose_at (frameToVector (slid 0)) 0). rewrite P0, A. reflexivity.
    - unfold T, tool_path. cbn [as_kdl vals give]. change [vx p0; vy p0; vz p0; vx g; vy g; vz g] with (frameToVector (slid 0)). change (vectorToTwist (row 1)) with along_x.
      change (vectorToFrame (frameToVector (slid 0))) with (pose_at (frameToVector (slid 0)) 0). rewrite P0, B. reflexivity. }
  split. { unfold t, tool_cruise. repeat (apply Forall_cons; [first [exact I | idtac]|]); try apply Forall_nil; [reflexivity|].
    intros _. split; [reflexivity|]. split; [reflexivity|]. rewrite twists_six. cbn. unfold vzero. f_equal. f_equal; f_equal; lra. }
  split. { unfold t, tool_cruise. repeat (apply Forall_cons; [first [exact I | idtac]|]); try apply Forall_nil.
    intros E. exfalso. rewrite !slid_written in E. assert (E2 : vx (fp (slid (-1))) = vx (fp (slid 1))) by congruence. cbn in E2. lra. }
  unfold t, tool_cruise.
  split; [cbn; auto 9|]. split. { exists (give [1]). split; [cbn; auto|]. split; [reflexivity|]. split; [reflexivity|]. intros [|i] H; [reflexivity|cbn in H; lia]. }
  split; [right; right; right; right; right; left; reflexivity|]. split; [reflexivity|]. split; [cbn; lra|].
  split; [do 8 right; left; reflexivity|]. cbn [vals give num number]. rewrite !P0. split; [unfold vsub, twist_at; cbn; f_equal; lra|].
  split; [unfold slid, along_x, half, vadd, mv, vscale; cbn; do 2 f_equal; lra|].
  split; [do 10 right; left; reflexivity|]. split.
  - exists (Tw (V 3 0 0) vzero). split; [split; reflexivity|]. unfold along_x, vscale. cbn. f_equal; ring.
  - intros (_ & E). cbn in E. assert (E2 : vx (t_vel along_x) = 3) by (injection E; auto). cbn in E2. lra.
Qed.

(** *** Fast turns *)
Definition fast : KdlRot.twist := Tw vzero (V 0 0 (3 * (PI / 2))).
Lemma along_fast : along_pos fid fast 0 = fid /\ along_vel fid fast 0 = Tw vzero (V 0 0 (- (PI / 2))).
Proof.
  pose proof PI_RGT_0 as P. pose proof PI_4 as P4. pose proof PI2_3_2 as P3.
  assert (N : norm (V 0 0 (3 * (PI / 2))) = 3 * (PI / 2)).
  { unfold norm, dot. cbn. replace (0 * 0 + 0 * 0 + 3 * (PI / 2) * (3 * (PI / 2))) with ((3 * (PI / 2)) * (3 * (PI / 2))) by ring. apply sqrt_square. lra. }
  assert (R : Rot (V 0 0 (3 * (PI / 2))) (3 * (PI / 2)) = Rot2 (V 0 0 (-1)) (PI / 2)).
  { unfold Rot. replace (normalize (V 0 0 (3 * (PI / 2)))) with (V 0 0 1).
    2:{ unfold normalize. rewrite N. replace (Rltb (3 * (PI / 2)) kdl_eps) with false by (symmetry; apply Rltb_false; pose proof eps_small; lra). unfold vscale. cbn. f_equal; field; lra. }
    unfold Rot2. rewrite cos_PI2, sin_PI2, cos_3PI2, sin_3PI2. cbn. f_equal; ring. }
  assert (PA : path_along fid fast 1 = Path fid (V 1 0 0) (V 0 0 (-1)) (PI / 2) 0 1).
  { unfold path_along, mk_path, fast. cbn [t_vel t_rot fid fM]. rewrite N, R, mm_id_r. replace (mT mid) with mid by reflexivity. rewrite mm_id_l.
    rewrite GetRotAngle_Rot2; [|unfold unit, dot; cbn; ring|lra|rewrite sin_PI2; pose proof eps_small; lra]. cbn [fst snd].
    rewrite norm_of_zero. replace (Rltb 0 kdl_eps) with true by (symmetry; apply Rltb_true; pose proof eps_small; lra).
    replace (Reqb (PI / 2) 0) with false by (symmetry; rewrite Reqb_of by lra; reflexivity).
    replace (Rltb 0 (PI / 2 * 1)) with true by (symmetry; apply Rltb_true; lra). cbn [negb andb]. unfold normalize. rewrite norm_of_zero.
    replace (Rltb 0 kdl_eps) with true by (symmetry; apply Rltb_true; pose proof eps_small; lra). f_equal; field; lra. }
  unfold along_pos, along_vel, along_profile. rewrite PA. cbn [pt_len]. rewrite Reqb_of by lra. unfold rect_duration. cbn [rc_p rc_v rc_d].
  assert (V0 : (10 - 0) / (10 / (PI / 2)) = PI / 2) by (field; lra). rewrite V0. replace (Rltb 10 (PI / 2)) with false by (symmetry; apply Rltb_false; lra).
  unfold rect_pos, rect_vel. cbn [rc_p rc_v rc_d past]. replace (Rltb 0 0) with false by (symmetry; apply Rltb_false; lra).
  assert (L : 0 < 10 / (PI / 2)) by (apply Rdiv_lt_0_compat; lra).
  replace (Rltb ((10 - 0) / (PI / 2)) 0) with false by (symmetry; apply Rltb_false; replace (10 - 0) with 10 by ring; lra).
  unfold path_pos, path_vel, fid. cbn [pt_start pt_axis pt_dir pt_lin pt_rot fM fp]. split.
  - f_equal; [|unfold vadd, vscale, vzero; cbn; f_equal; ring]. replace ((0 + PI / 2 * 0) * 1) with 0 by ring. rewrite Rot2_zero. apply mm_id_l.
  - f_equal; unfold vscale, mv, mid, vzero; cbn; f_equal; ring.
Qed.
(** a joint that turns about the z axis *)
Definition turns_at (f : Z) (q w : list R) (vs : list KdlRot.twist) : Prop := f = BASE_FRAME /\ vs = map (fun v => Tw vzero (V 0 0 v)) w.
Definition spin : list R := [0; 0; 0; 0; 0; 3 * (PI / 2)].
Definition spin_path : traj := Along (row 0) spin.
Definition spinning : st := setCurrentState VOCAB_CC_MOVV_CONTROLLING (set_startTime 5 (set_trajectories [spin_path] idle)).
Lemma movv_spin : exec (movv one spin) idle velocity_start (Done true) spinning.
Proof. ex. Qed.
Definition turn_back : list event :=
  [(GetEncoders, give [0]); (GetEncoderSpeeds, give [0]); (GetEncoderAccelerations, give [0]);
   (GetControlModes, mode 1 VOCAB_CM_VELOCITY); (Now, number 5); (FwdKin [0], give (row 0));
   (TrajPos spin_path (5 - 5), give (row 0)); (TrajVel spin_path (5 - 5), give [0; 0; 0; 0; 0; - (PI / 2)]);
   (PoseDiff (row 0) (row 0), give (row 0));
   (DiffInvKin [0] [0 * (1/20 * (1000 / 50)) + 0; 0 * (1 / 20 * (1000 / 50)) + 0; 0 * (1 / 20 * (1000 / 50)) + 0; 0 * (1 / 20 * (1000 / 50)) + 0;
      0 * (1 / 20 * (1000 / 50)) + 0; 0 * (1 / 20 * (1000 / 50)) + - (PI / 2)] BASE_FRAME, give [- (PI / 2)]);
   (VelocityMove [- (PI / 2)], yes)].
Lemma turns_back : exec (run one) spinning turn_back (Done tt) spinning.
Proof. pose proof PI_RGT_0. pose proof PI_4. ex. Qed.
(** asked to turn three quarters of a turn per second, it is told at once to turn the other way *)
Lemma movv_spin_refuted : exists c xd s tr s1 t s2 from start now q cur w a moves,
  exec (movv c xd) s tr (Done true) s1 /\ referenceFrame s = BASE_FRAME /\ length xd = 6%nat /\ speed (twist_at xd 0) <= 10 /\ starts_at (numJoints c) tr from /\ In (Now, start) tr /\
  history c s1 [(OCycle, t, true)] s2 /\ Forall as_kdl t /\ Forall (moves_as_asked (numJoints c) 1 moves) t /\ Forall tells_equal t /\
  In (Now, now) t /\ joints_read (numJoints c) t q /\ In (FwdKin q, cur) t /\ ok cur = true /\
  num now = num start /\ poses (vals cur) = [pose_at from 0] /\
  In (VelocityMove w, a) t /\ (exists v, moves BASE_FRAME q w [v] /\ t_rot v = vscale (- (1 / 3)) (t_rot (twist_at xd 0))) /\ ~ moves BASE_FRAME q w [twist_at xd 0].
Proof.
  pose proof PI_RGT_0 as P. pose proof PI_4 as P4. destruct along_fast as (A & B).
  assert (N : norm (V 0 0 (3 * (PI / 2))) = 3 * (PI / 2)).
  { unfold norm, dot. cbn. replace (0 * 0 + 0 * 0 + 3 * (PI / 2) * (3 * (PI / 2))) with ((3 * (PI / 2)) * (3 * (PI / 2))) by ring. apply sqrt_square. lra. }
  exists one, spin, idle, velocity_start, spinning, turn_back, spinning, (row 0), (number 5), (number 5), [0], (give (row 0)), [- (PI / 2)], yes, turns_at.
  change (twist_at spin 0) with fast.
  split; [exact movv_spin|]. split; [reflexivity|]. split; [reflexivity|]. split. { unfold speed, fast. cbn [t_vel t_rot]. rewrite norm_of_zero, N, Rmax_right; lra. }
  split; [exact start_x|]. split; [cbn; auto 9|]. split; [eapply hcycle; [exact turns_back|constructor]|].
  assert (Z5 : 5 - 5 = 0) by ring. unfold turn_back.
  split. { repeat (apply Forall_cons; [first [exact I | idtac]|]); try apply Forall_nil.
    - unfold spin_path. cbn [as_kdl vals give]. change (vectorToTwist spin) with fast. rewrite row_pose, Z5. change (at_x 0) with fid. rewrite A. symmetry. apply (x_row 0).
    - unfold spin_path. cbn [as_kdl vals give]. change (vectorToTwist spin) with fast. rewrite row_pose, Z5. change (at_x 0) with fid. rewrite B. reflexivity. }
  split. { repeat (apply Forall_cons; [first [exact I | idtac]|]); try apply Forall_nil; [reflexivity|].
    intros _. split; [reflexivity|]. split; [reflexivity|]. rewrite twists_six. cbn. unfold vzero. f_equal. f_equal; f_equal; lra. }
  split. { repeat (apply Forall_cons; [first [exact I | idtac]|]); try apply Forall_nil.
    intros _ j. cbn. do 6 (destruct j as [|j]; [lra|]). destruct j; reflexivity. }
  split; [cbn; auto 9|]. split. { exists (give [0]). split; [cbn; auto|]. split; [reflexivity|]. split; [reflexivity|]. intros [|i] H; [reflexivity|cbn in H; lia]. }
  split; [cbn; auto 9|]. split; [reflexivity|]. split; [reflexivity|]. split; [cbn [vals give]; rewrite poses_row, pose_row; reflexivity|].
  split; [cbn; auto 15|]. split.
  - exists (Tw vzero (V 0 0 (- (PI / 2)))). split; [split; reflexivity|]. unfold fast, vscale. cbn. f_equal; field.
  - intros (_ & E). cbn in E. assert (E2 : vz (t_rot fast) = - (PI / 2)) by (injection E; auto). cbn in E2. lra.
Qed.

(** ** The end of a movement along a line *)
Definition to_the_end : list entry := [(OCycle, slide 109.98 0 0.999992, true); (OCycle, slide_over 110.02 0, true)].
Example movl_rail_end : 0 < duration idle /\ exec (movl rail 0 (row 1)) idle setting_off (Done true) sliding /\
  history rail sliding to_the_end (set_off sliding) /\ Forall (fun e => watches (fst (fst e))) to_the_end /\ Forall as_kdl (trace_of to_the_end) /\
  currentState (set_off sliding) = VOCAB_CC_NOT_CONTROLLING /\ cmcSuccess (set_off sliding) = true.
Proof.
  split; [cbn; lra|]. split; [exact movl_rail|]. split.
  { eapply hcycle; [apply slides; lra|]. eapply hcycle; [apply slides_over; lra|constructor]. }
  split; [repeat constructor|]. unfold trace_of, to_the_end. cbn [map fst snd concat]. split; [|split; reflexivity].
  apply Forall_app; split; [apply (slide_kdl _ _ _ at_end)|]. apply Forall_app; split; [apply over_kdl|constructor].
Qed.
(** the position sent two hundredths of a second before the end is eight micrometres short, not more than two millimetres *)
Example near_the_end : line_time (pose_at (row 0) 0) (pose_at (row 1) 0) 10 = 10 /\ 10 - 0.02 <= 109.98 - 100 /\ 1 - 0.999992 <= 5 * (0.02 * 0.02).
Proof.
  split; [|split; lra]. destruct (line_moves (row 0) (row 1) 10 0) as (_ & LS & _); [rewrite !pose_row; exact apart_x|lra|].
  rewrite !pose_row in *. rewrite takes_10 in LS. injection LS as LS. symmetry. exact LS.
Qed.
(** the robot is where it should be after two seconds *)
Definition in_step : list entry := [(OCycle, cruise 7 2 2 1 1, true)].
Example movv_one_in_step : exec (movv one (row 1)) idle velocity_start (Done true) gliding /\ referenceFrame idle = BASE_FRAME /\
  history one gliding in_step gliding /\ Forall (fun e => lets_go_on (fst (fst e))) in_step /\
  Forall as_kdl (trace_of in_step) /\ Forall (moves_as_asked (numJoints one) 1 slides_at) (trace_of in_step) /\ Forall tells_equal (trace_of in_step) /\
  (forall i, (i < 1)%nat -> visible (twist_at (row 1) i)) /\ starts_at 1 velocity_start (row 0) /\ In (VelocityMove [1], yes) (cruise 7 2 2 1 1) /\
  (7 - 5) * speed (twist_at (row 1) 0) <= 10 /\ poses (row 2) = [going (pose_at (row 0) 0) (twist_at (row 1) 0) (7 - 5)] /\
  regular_log (fM (going (pose_at (row 0) 0) (twist_at (row 1) 0) (7 - 5))).
Proof.
  assert (K : Forall as_kdl (cruise 7 2 2 1 1) /\ Forall (moves_as_asked 1 1 slides_at) (cruise 7 2 2 1 1) /\ Forall tells_equal (cruise 7 2 2 1 1)).
  { destruct (along_going (at_x 0) along_x (7 - 5) (rigid_x 0) visible_x ltac:(lra) ltac:(rewrite speed_x; lra)) as (A & B).
    apply cruise_kdl; [rewrite A, going_x; f_equal; lra|exact B|lra]. }
  destruct K as (K1 & K2 & K3). split; [exact movv_one|]. split; [reflexivity|]. split.
  { eapply hcycle; [apply cruises; lra|constructor]. }
  split; [repeat constructor|]. unfold trace_of, in_step. cbn [map fst snd concat]. rewrite app_nil_r.
  split; [exact K1|]. split; [exact K2|]. split; [exact K3|].
  split. { intros i H. assert (i = 0)%nat as -> by lia. exact visible_x. }
  split; [exact start_x|]. split; [cbn; auto 15|]. change (twist_at (row 1) 0) with along_x. rewrite speed_x, pose_row, going_x, poses_row.
  split; [lra|]. split; [do 2 f_equal; lra|apply regular_x].
Qed.
