(** Concrete movements along a line: examples for the properties and counterexamples. *)
From Coq Require Import Reals ZArith List Bool Lra Lia.
From Verif Require KinRep.
From Verif Require Import Kdl KdlFacts KdlRot KdlRotFacts KinRepSpec AsibotSpec KdlTraj LineSpec LineFacts LineFacts2 LineFacts3 KeyboardFacts7 Vocab Bcc BccSpec BccKdl BccLineSpec
  BccFacts BccFacts2 BccFacts5 BccExamples BccLineFacts2 BccLineFacts3.
Import ListNotations.
Open Scope R_scope.
Local Notation S := Datatypes.S.
Local Notation length := List.length.
Local Notation vectorToFrame := KinRep.vectorToFrame.
Local Notation frameToVector := KinRep.frameToVector.
Local Notation on_line := BccLineSpec.on_line.

(** ** A point that slides along the x axis *)
Definition at_x (x : R) : frame := F mid (V x 0 0).
Definition row (x : R) : list R := [x; 0; 0; 0; 0; 0].
Lemma row_pose x : vectorToFrame (row x) = at_x x.
Proof. cbn. unfold at_x. f_equal. unfold Rot. change (V 0 0 0) with vzero. rewrite norm_of_zero. apply Rot2_zero. Qed.
Lemma pose_row x : pose_at (row x) 0 = at_x x.
Proof. rewrite <- row_pose. reflexivity. Qed.
Lemma x_row x : frameToVector (at_x x) = row x.
Proof. unfold KinRep.frameToVector, at_x, row, GetRot. cbn [fM fp]. rewrite GetRotAngle_id. cbn. rewrite !Rmult_0_l. reflexivity. Qed.
Lemma norm_x x : 0 <= x -> norm (V x 0 0) = x.
Proof. intros H. unfold norm, dot. cbn. replace (x * x + 0 * 0 + 0 * 0) with (x * x) by ring. apply sqrt_square. exact H. Qed.
Lemma normalize_x : normalize (V 1 0 0) = V 1 0 0.
Proof. unfold normalize. rewrite norm_x by lra. unfold vscale. cbn. destruct Rltb; [reflexivity|]. f_equal; field. Qed.
Lemma eps_small : 0 < kdl_eps < 1 / 1000. Proof. unfold kdl_eps. lra. Qed.
Lemma apart_x : measurable (at_x 0) (at_x 1).
Proof.
  split.
  - right. unfold at_x, vsub. cbn. replace (1 - 0) with 1 by ring. replace (0 - 0) with 0 by ring. rewrite norm_x by lra. pose proof eps_small. lra.
  - right. cbn. repeat split; ring.
Qed.
Lemma regular_x x : regular_log (fM (at_x x)). Proof. right. repeat split. Qed.
Lemma line_x D t : line_pos (at_x 0) (at_x 1) D t = option_map (fun p => at_x (trap_pos p t)) (trap_duration 10 10 0 1 D) /\
  line_seconds (at_x 0) (at_x 1) D = option_map tp_d (trap_duration 10 10 0 1 D).
Proof.
  unfold line_pos, line_seconds, line_profile. assert (P : path_line (at_x 0) (at_x 1) 1 = Path (at_x 0) (V 1 0 0) (V 0 0 1) 1 1 0).
  { unfold path_line, mk_path, at_x, vsub. cbn [fM fp vx vy vz]. replace (1 - 0) with 1 by ring. replace (0 - 0) with 0 by ring. rewrite norm_x, normalize_x by lra.
    replace (mm (mT mid) mid) with mid by (unfold mm, mT, mid; cbn; f_equal; ring). rewrite GetRotAngle_id. cbn [fst snd].
    replace (Rltb 1 kdl_eps) with false by (symmetry; apply Rltb_false; pose proof eps_small; lra).
    replace (Reqb 0 0) with true by (symmetry; apply Reqb_true; reflexivity). cbn [negb andb]. rewrite Reqb_of by lra. cbn. f_equal. field. }
  rewrite P. cbn [pt_len]. split; [|reflexivity]. destruct trap_duration as [p|]; [|reflexivity]. cbn. f_equal. unfold path_pos, at_x. cbn.
  f_equal; [rewrite Rmult_0_r, Rot2_zero; unfold mm, mid; cbn; f_equal; ring|unfold vadd, vscale; cbn; f_equal; ring].
Qed.

(** one metre in ten seconds *)
Definition q10 : R := sqrt (1 / 10).
Lemma q10_sq : q10 * q10 = 1 / 10. Proof. apply sqrt_sqrt. lra. Qed.
Lemma q10_bounds : 316 / 1000 < q10 < 317 / 1000.
Proof.
  pose proof q10_sq as Q. assert (0 <= q10) by apply sqrt_pos.
  split; apply Rnot_le_lt; intro; nra.
Qed.
Lemma profile_1 D : 0 < D -> exists p, trap_duration 10 10 0 1 D = Some p /\ (2 * q10 <= D -> tp_d p = D) /\ (D < 2 * q10 -> tp_d p = 2 * q10) /\
  (2 * q10 <= D -> forall t, 0 <= t < D / 2 -> trap_pos p t = 2 * (t / D * (t / D))) /\
  (2 * q10 <= D -> forall t, D / 2 <= t <= D -> trap_pos p t = 1 - 2 * ((1 - t / D) * (1 - t / D))) /\
  (D < 2 * q10 -> forall t, q10 <= t <= 2 * q10 -> trap_pos p t = 1 - 5 * ((2 * q10 - t) * (2 * q10 - t))).
Proof.
  intros DP. pose proof q10_sq as Q2. pose proof q10_bounds as QB.
  unfold trap_duration, trap_set. replace (Rltb (1 - 0) 0) with false by (symmetry; apply Rltb_false; lra). cbv zeta.
  replace (1 * 10 * (10 / 10 * (10 / 10)) / 2) with 5 by field. replace ((1 - 0 - 2 * 5) / (1 * 10)) with (- (9 / 10)) by field.
  replace (Rltb 0 (- (9 / 10))) with false by (symmetry; apply Rltb_false; lra). replace ((1 - 0) / 1 / 10) with (1 / 10) by field. fold q10. cbn [tp_d tp_start tp_end tp_t1 tp_t2 tp_a1 tp_a2 tp_a3 tp_b1 tp_b2 tp_b3 tp_c1 tp_c2 tp_c3].
  rewrite Reqb_of by lra.
  assert (K : 1 < q10 * 2 / D <-> D < 2 * q10).
  { split; intro H.
    - apply (Rmult_lt_compat_r D) in H; [|lra]. replace (q10 * 2 / D * D) with (q10 * 2) in H by (field; lra). lra.
    - apply (Rmult_lt_reg_r D); [lra|]. replace (q10 * 2 / D * D) with (q10 * 2) by (field; lra). lra. }
  destruct (Rltb_spec 1 (q10 * 2 / D)) as [L|L].
  - apply K in L. eexists. split; [reflexivity|]. split; [lra|]. cbn. split; [lra|]. split; [lra|]. split; [lra|]. intros _ t T.
    unfold trap_pos. cbn. replace (Rltb t 0) with false by (symmetry; apply Rltb_false; lra). replace (Rltb t q10) with false by (symmetry; apply Rltb_false; lra).
    replace (Rleb t (q10 * 2)) with true by (symmetry; apply Rleb_true; lra). nra.
  - assert (L' : ~ D < 2 * q10) by (intro; apply L, K; auto). eexists. split; [reflexivity|]. split; [reflexivity|]. split; [lra|].
    assert (KN : q10 * 2 / D <> 0). { intro E. apply (f_equal (fun x => x * D)) in E. replace (q10 * 2 / D * D) with (q10 * 2) in E by (field; lra). lra. }
    assert (T1 : stretch (q10 * 2 / D) (Some q10) = Some (D / 2)). { unfold stretch. rewrite Reqb_of by exact KN. f_equal. field. lra. }
    assert (C2 : forall x, x * (q10 * 2 / D) * (q10 * 2 / D) = x * (4 / 10) / (D * D)).
    { intros x. replace (x * (q10 * 2 / D) * (q10 * 2 / D)) with (x * (4 * (q10 * q10)) / (D * D)) by (field; lra). rewrite Q2. field. lra. }
    split; [|split; [|lra]].
    + intros _ t T. unfold trap_pos. cbn [tp_start tp_t1 tp_t2 tp_d tp_end tp_a1 tp_a2 tp_a3 tp_c1 tp_c2 tp_c3]. rewrite T1. cbn [below].
      replace (Rltb t 0) with false by (symmetry; apply Rltb_false; lra). replace (Rltb t (D / 2)) with true by (symmetry; apply Rltb_true; lra).
      rewrite <- Rmult_assoc, C2. field. lra.
    + intros _ t T. unfold trap_pos. cbn [tp_start tp_t1 tp_t2 tp_d tp_end tp_a1 tp_a2 tp_a3 tp_c1 tp_c2 tp_c3]. rewrite T1. cbn [below].
      replace (Rltb t 0) with false by (symmetry; apply Rltb_false; lra). replace (Rltb t (D / 2)) with false by (symmetry; apply Rltb_false; lra).
      replace (Rleb t D) with true by (symmetry; apply Rleb_true; lra).
      transitivity (- 10 * (q10 * q10) + t * (40 * (q10 * q10) / D - 20 * (q10 * q10) * t / (D * D))); [field; lra|].
      rewrite Q2. field. lra.
Qed.

(** ** Runs of the controller with a robot whose joints are sliders along the x axis, one for each endpoint *)
Definition on_rails (q : list R) (ps : list frame) : Prop := ps = map at_x q.
Definition rail : cfg := Cfg 1 true false false [-100] [100] [-10] [10] [10].
Definition to_one : traj := Line (row 0) (row 1) 10.
Definition setting_off : list event :=
  [(GetEncoders, give [0]); (FwdKin [0], give (row 0)); (GetControlModes, mode 1 VOCAB_CM_POSITION_DIRECT); (Sleep (1 / 10), yes);
   (GetControlModes, mode 1 VOCAB_CM_POSITION_DIRECT); (Now, number 100)].
Definition sliding : st := setCurrentState VOCAB_CC_MOVL_CONTROLLING (set_startTime 100 (set_trajectories [to_one] idle)).
Example movl_rail : exec (movl rail 0 (row 1)) idle setting_off (Done true) sliding.
Proof. ex. Qed.
(** a cycle at the time [now], with the robot at [q] and the endpoint to be brought to [x] *)
Definition slide (now q x : R) : list event :=
  [(GetEncoders, give [q]); (GetEncoderSpeeds, give [0]); (GetEncoderAccelerations, give [0]); (GetControlModes, mode 1 VOCAB_CM_POSITION_DIRECT);
   (Now, number now); (TrajDuration to_one, number 10); (TrajPos to_one (now - 100), give (row x));
   (InvKin (row x) [q] BASE_FRAME, give [x]); (SetPositions [x], yes)].
Definition slide_over (now q : R) : list event :=
  [(GetEncoders, give [q]); (GetEncoderSpeeds, give [0]); (GetEncoderAccelerations, give [0]); (GetControlModes, mode 1 VOCAB_CM_POSITION_DIRECT);
   (Now, number now); (TrajDuration to_one, number 10)] ++ stop_one.
Lemma slides now q x : now - 100 <= 10 -> -99 <= q <= 99 -> exec (run rail) sliding (slide now q x) (Done tt) sliding.
Proof. intros H Q. ex. Qed.
Lemma slides_over now q : 10 < now - 100 -> -99 <= q <= 99 -> exec (run rail) sliding (slide_over now q) (Done tt) (set_off sliding).
Proof. intros H Q. ex. Qed.
Lemma row_kdl t x a : (forall h, line_pos (at_x 0) (at_x 1) 10 t = Some h -> h = at_x x) -> vals a = row x -> as_kdl (TrajPos to_one t, a).
Proof. intros H V h E. rewrite !row_pose in E. rewrite (H _ E), x_row. exact V. Qed.
Lemma at_5 : line_pos (at_x 0) (at_x 1) 10 (105 - 100) = Some (at_x (1 / 2)).
Proof.
  destruct (line_x 10 (105 - 100)) as (-> & _). destruct (profile_1 10 ltac:(lra)) as (p & -> & _ & _ & _ & P & _). cbn. pose proof q10_bounds.
  rewrite P by lra. do 2 f_equal. field.
Qed.
Lemma at_end : line_pos (at_x 0) (at_x 1) 10 (109.98 - 100) = Some (at_x 0.999992).
Proof.
  destruct (line_x 10 (109.98 - 100)) as (-> & _). destruct (profile_1 10 ltac:(lra)) as (p & -> & _ & _ & _ & P & _). cbn. pose proof q10_bounds.
  rewrite P by lra. do 2 f_equal. lra.
Qed.
Lemma takes_10 : line_seconds (at_x 0) (at_x 1) 10 = Some 10.
Proof. destruct (line_x 10 0) as (_ & ->). destruct (profile_1 10 ltac:(lra)) as (p & -> & P & _). cbn. pose proof q10_bounds. rewrite P by lra. reflexivity. Qed.
Lemma takes_kdl : as_kdl (TrajDuration to_one, number 10).
Proof. intros T E. rewrite !row_pose, takes_10 in E. injection E as <-. reflexivity. Qed.
Lemma poses_row x : poses (row x) = [at_x x].
Proof. unfold poses. cbn. rewrite <- pose_row. reflexivity. Qed.
Lemma slide_kdl now q x : line_pos (at_x 0) (at_x 1) 10 (now - 100) = Some (at_x x) -> Forall as_kdl (slide now q x) /\ Forall (solves 1 on_rails) (slide now q x).
Proof.
  intros H. split; repeat (apply Forall_cons; [first [exact I | exact takes_kdl | idtac]|]); try apply Forall_nil.
  - apply (row_kdl _ x); [rewrite H; congruence|reflexivity].
  - intros _ _. split; [reflexivity|]. unfold on_rails. apply poses_row.
Qed.
Lemma over_kdl now q : Forall as_kdl (slide_over now q) /\ Forall (solves 1 on_rails) (slide_over now q).
Proof. split; repeat (constructor; [first [exact I | exact takes_kdl]|]); constructor. Qed.

(** the hypotheses of C104, and the command in it *)
Definition half_way : list entry :=
  [(OStat, [(GetEncoders, give [0]); (Now, number 104); (FwdKin [0], give (row 0))], true); (OCycle, slide 105 0 (1 / 2), true); (OSet VOCAB_CC_CONFIG_GAIN 1, [], false)].
Example movl_rail_run : 0 < duration idle /\ exec (movl rail 0 (row 1)) idle setting_off (Done true) sliding /\
  history rail sliding half_way sliding /\ Forall (fun e => lets_go_on (fst (fst e))) half_way /\
  Forall as_kdl (trace_of half_way) /\ Forall (solves (numJoints rail) on_rails) (trace_of half_way) /\
  from_to 1 idle (row 1) setting_off (row 0) (row 1) /\ (forall i, (i < length (row 1) / 6)%nat -> measurable (pose_at (row 0) i) (pose_at (row 1) i)) /\
  motion (SetPositions [1 / 2]) = true /\ In (SetPositions [1 / 2], yes) (slide 105 0 (1 / 2)).
Proof.
  split; [cbn; lra|]. split; [exact movl_rail|]. split.
  { eapply hcons; [cbn [do_op]; ex|]. eapply hcycle; [apply slides; lra|]. eapply hcons; [cbn [do_op]; unfold setParameter; ex|constructor]. }
  split; [repeat constructor|]. unfold trace_of, half_way. cbn [map fst snd concat].
  destruct (slide_kdl 105 0 (1 / 2) at_5) as (K1 & K2).
  split; [apply Forall_app; split; [repeat constructor|]; apply Forall_app; split; [exact K1|constructor]|].
  split; [apply Forall_app; split; [repeat constructor|]; apply Forall_app; split; [exact K2|constructor]|].
  split. { split; [|split; [reflexivity|discriminate]]. exists [0], (give (row 0)). split; [|split; [cbn; auto|split; reflexivity]].
    exists (give [0]). split; [cbn; auto|]. split; [reflexivity|]. split; [reflexivity|]. intros [|i] H; [reflexivity|lia]. }
  split. { intros i H. cbn in H. destruct i as [|i]; [|lia]. rewrite !pose_row. exact apart_x. }
  split; [reflexivity|cbn; auto 12].
Qed.

(** ** The end of the movement *)
(** a movement that ends successfully, with the cycles in time, without the target having been sent *)
Definition whole_way : list entry := [(OCycle, slide 109.98 0 0.999992, true); (OCycle, slide_over 110.02 0, true); (OWait 0 0, [], true)].
Lemma arrival_run : history rail sliding whole_way (set_off sliding) /\ Forall as_kdl (trace_of whole_way) /\ Forall (solves 1 on_rails) (trace_of whole_way).
Proof.
  split; [|split].
  - eapply hcycle; [apply slides; lra|]. eapply hcycle; [apply slides_over; lra|]. eapply hcons; [cbn [do_op]; ex|constructor].
  - unfold trace_of, whole_way. cbn [map fst snd concat]. apply Forall_app; split; [apply (slide_kdl _ _ _ at_end)|]. apply Forall_app; split; [apply over_kdl|constructor].
  - unfold trace_of, whole_way. cbn [map fst snd concat]. apply Forall_app; split; [apply (slide_kdl _ _ _ at_end)|]. apply Forall_app; split; [apply over_kdl|constructor].
Qed.

Lemma arrival_refuted : exists c fuel xd s tr s1 h s2 start reaches,
  usePosdMovl c = true /\ exec (movl c fuel xd) s tr (Done true) s1 /\ from_to (numJoints c) s xd tr (row 0) xd /\ In (Now, start) tr /\
  measurable (pose_at (row 0) 0) (pose_at xd 0) /\ length xd = 6%nat /\
  history c s1 h s2 /\ Forall as_kdl (trace_of h) /\ Forall (solves (numJoints c) reaches) (trace_of h) /\
  (exists t1 t2 w n1 n2, h = [(OCycle, t1, true); (OCycle, t2, true); (OWait 0 w, [], true)] /\ In (Now, n1) t1 /\ In (Now, n2) t2 /\
     num n1 - num start < line_time (pose_at (row 0) 0) (pose_at xd 0) (duration s) < num n2 - num start /\ num n2 - num n1 <= IZR (cmcPeriodMs s) / 1000) /\
  currentState s2 = VOCAB_CC_NOT_CONTROLLING /\ cmcSuccess s2 = true /\
  (exists q a, In (SetPositions q, a) (trace_of h)) /\ forall q a, In (SetPositions q, a) (trace_of h) -> ~ reaches q [pose_at xd 0].
Proof.
  exists rail, 0%nat, (row 1), idle, setting_off, sliding, whole_way, (set_off sliding), (number 100), on_rails.
  destruct arrival_run as (A & B & C). destruct movl_rail_run as (_ & _ & _ & _ & _ & _ & FT & M & _).
  split; [reflexivity|]. split; [exact movl_rail|]. split; [exact FT|]. split; [cbn; auto 9|]. split; [apply M; cbn; lia|]. split; [reflexivity|].
  split; [exact A|]. split; [exact B|]. split; [exact C|]. split.
  { exists (slide 109.98 0 0.999992), (slide_over 110.02 0), 0, (number 109.98), (number 110.02). split; [reflexivity|]. split; [cbn; auto 9|]. split; [cbn; auto 9|].
    assert (LT : line_time (pose_at (row 0) 0) (pose_at (row 1) 0) (duration idle) = 10).
    { destruct (line_moves (row 0) (row 1) 10 0 (M 0%nat ltac:(cbn; lia)) ltac:(lra)) as (_ & LS & _). rewrite !pose_row in *. rewrite takes_10 in LS. injection LS as LS. symmetry. exact LS. }
    rewrite LT. cbn. lra. }
  split; [reflexivity|]. split; [reflexivity|]. split; [exists [0.999992], yes; cbn; auto 12|].
  intros q a H. assert (Q : q = [0.999992]).
  { cbn in H. repeat (destruct H as [H|H]; [first [discriminate|congruence]|]). contradiction. }
  subst q. unfold on_rails. rewrite pose_row. cbn. intros E. assert (E2 : vx (fp (at_x 1)) = vx (fp (at_x 0.999992))) by (injection E; intros; cbn; auto). cbn in E2. lra.
Qed.

(** two endpoints, the first of which stays where it is *)
Definition rails : cfg := Cfg 2 true false false [-100; -100] [100; 100] [-10; -10] [10; 10] [10; 10].
Definition hurried : st := set_duration (1 / 2) idle.
Definition stays : traj := Line (row 0) (row 0) (1 / 2).
Definition goes : traj := Line (row 0) (row 1) (1 / 2).
Definition setting_off2 : list event :=
  [(GetEncoders, give [0; 0]); (FwdKin [0; 0], give (row 0 ++ row 0)); (GetControlModes, mode 2 VOCAB_CM_POSITION_DIRECT); (Sleep (1 / 10), yes);
   (GetControlModes, mode 2 VOCAB_CM_POSITION_DIRECT); (Now, number 100)].
Definition sliding2 : st := setCurrentState VOCAB_CC_MOVL_CONTROLLING (set_startTime 100 (set_trajectories [stays; goes] hurried)).
Example movl_rails : exec (movl rails 0 (row 0 ++ row 1)) hurried setting_off2 (Done true) sliding2.
Proof. ex. Qed.
Definition so_far : R := 1 - 5 * ((2 * q10 - (100.49 - 100)) * (2 * q10 - (100.49 - 100))).
Definition slide2 : list event :=
  [(GetEncoders, give [0; 0]); (GetEncoderSpeeds, give [0; 0]); (GetEncoderAccelerations, give [0; 0]); (GetControlModes, mode 2 VOCAB_CM_POSITION_DIRECT);
   (Now, number 100.49); (TrajDuration stays, number (1 / 2)); (TrajPos stays (100.49 - 100), give (row 0));
   (TrajDuration goes, number (2 * q10)); (TrajPos goes (100.49 - 100), give (row so_far));
   (InvKin (row 0 ++ row so_far) [0; 0] BASE_FRAME, give [0; so_far]); (SetPositions [0; so_far], yes)].
Definition slide2_over : list event :=
  [(GetEncoders, give [0; so_far]); (GetEncoderSpeeds, give [0; 0]); (GetEncoderAccelerations, give [0; 0]); (GetControlModes, mode 2 VOCAB_CM_POSITION_DIRECT);
   (Now, number 100.53); (TrajDuration stays, number (1 / 2));
   (GetControlModes, mode 2 VOCAB_CM_POSITION); (Sleep (1 / 10), yes); (GetControlModes, mode 2 VOCAB_CM_POSITION); (Stop, yes)].
Lemma so_far_bounds : 0 <= so_far <= 0.91.
Proof. pose proof q10_bounds. unfold so_far. split; nra. Qed.
Lemma slides2 : exec (run rails) sliding2 slide2 (Done tt) sliding2.
Proof. pose proof q10_bounds. ex. Qed.
Lemma slides2_over : exec (run rails) sliding2 slide2_over (Done tt) (set_off sliding2).
Proof. pose proof so_far_bounds. ex. Qed.
Lemma stay_x t : line_pos (at_x 0) (at_x 0) (1 / 2) t = Some (at_x 0) /\ line_seconds (at_x 0) (at_x 0) (1 / 2) = Some (1 / 2).
Proof.
  unfold line_pos, line_seconds, line_profile. assert (P : path_line (at_x 0) (at_x 0) 1 = Path (at_x 0) (V 1 0 0) (V 0 0 1) 0 1 1).
  { unfold path_line, mk_path, at_x, vsub. cbn [fM fp vx vy vz]. replace (0 - 0) with 0 by ring. change (V 0 0 0) with vzero.
    unfold normalize. rewrite norm_of_zero. replace (Rltb 0 kdl_eps) with true by (symmetry; apply Rltb_true; pose proof eps_small; lra).
    replace (mm (mT mid) mid) with mid by (unfold mm, mT, mid; cbn; f_equal; ring). rewrite GetRotAngle_id. cbn [fst snd].
    replace (Reqb 0 0) with true by (symmetry; apply Reqb_true; reflexivity). reflexivity. }
  rewrite P. cbn [pt_len]. destruct (trap_still (1 / 2) ltac:(lra)) as (p & -> & D & Z). cbn. destruct (Z t) as (-> & _).
  split; [|rewrite D; f_equal; apply Rmax_left; unfold least_time; replace (Rleb 0 10) with true by (symmetry; apply Rleb_true; lra); replace (0 / 10) with 0 by field; rewrite sqrt_0; lra].
  f_equal. unfold path_pos, at_x. cbn.
  f_equal; [rewrite Rmult_0_l, Rot2_zero; unfold mm, mid; cbn; f_equal; ring|unfold vadd, vscale; cbn; f_equal; ring].
Qed.
Lemma go_x : line_pos (at_x 0) (at_x 1) (1 / 2) (100.49 - 100) = Some (at_x so_far) /\ line_seconds (at_x 0) (at_x 1) (1 / 2) = Some (2 * q10).
Proof.
  pose proof q10_bounds. destruct (line_x (1 / 2) (100.49 - 100)) as (-> & ->). destruct (profile_1 (1 / 2) ltac:(lra)) as (p & -> & _ & P1 & _ & _ & P2). cbn.
  rewrite P1, P2 by lra. split; reflexivity.
Qed.
Definition both_ways : list entry := [(OCycle, slide2, true); (OCycle, slide2_over, true); (OWait 0 0, [], true)].
Lemma both_run : history rails sliding2 both_ways (set_off sliding2) /\ Forall as_kdl (trace_of both_ways) /\ Forall (solves 2 on_rails) (trace_of both_ways).
Proof.
  split; [|split].
  - eapply hcycle; [exact slides2|]. eapply hcycle; [exact slides2_over|]. eapply hcons; [cbn [do_op]; ex|constructor].
  - unfold trace_of, both_ways. cbn [map fst snd concat app]. unfold slide2, slide2_over. cbn [app].
    repeat (apply Forall_cons; [first [exact I | idtac]|]); try apply Forall_nil.
    + intros T E. rewrite !row_pose in E. destruct (stay_x 0) as (_ & S). rewrite S in E. injection E as <-. reflexivity.
    + intros h E. rewrite !row_pose in E. destruct (stay_x (100.49 - 100)) as (S & _). rewrite S in E. injection E as <-. rewrite x_row. reflexivity.
    + intros T E. rewrite !row_pose in E. destruct go_x as (_ & S). rewrite S in E. injection E as <-. reflexivity.
    + intros h E. rewrite !row_pose in E. destruct go_x as (S & _). rewrite S in E. injection E as <-. rewrite x_row. reflexivity.
    + intros T E. rewrite !row_pose in E. destruct (stay_x 0) as (_ & S). rewrite S in E. injection E as <-. reflexivity.
  - unfold trace_of, both_ways. cbn [map fst snd concat app]. unfold slide2, slide2_over. cbn [app].
    repeat (apply Forall_cons; [first [exact I | idtac]|]); try apply Forall_nil.
    intros _ _. split; [reflexivity|]. unfold on_rails. rewrite poses_app by reflexivity. rewrite pose_row, poses_row. reflexivity.
Qed.
Lemma pose_second x y : pose_at (row x ++ row y) 1 = at_x y.
Proof. rewrite <- row_pose. reflexivity. Qed.
Lemma pose_first x y : pose_at (row x ++ row y) 0 = at_x x.
Proof. rewrite <- row_pose. reflexivity. Qed.
Lemma still_x : measurable (at_x 0) (at_x 0).
Proof. split; [left; reflexivity|]. right. cbn. repeat split; ring. Qed.
Lemma several_refuted : exists c fuel xd s tr s1 h s2 from reaches,
  usePosdMovl c = true /\ exec (movl c fuel xd) s tr (Done true) s1 /\ from_to (numJoints c) s xd tr from xd /\
  (forall i, (i < length xd / 6)%nat -> measurable (pose_at from i) (pose_at xd i)) /\
  history c s1 h s2 /\ Forall as_kdl (trace_of h) /\ Forall (solves (numJoints c) reaches) (trace_of h) /\
  (exists t1 t2 n1 n2, h = [(OCycle, t1, true); (OCycle, t2, true); (OWait 0 0, [], true)] /\ In (Now, n1) t1 /\ In (Now, n2) t2 /\
     num n2 - num n1 <= IZR (cmcPeriodMs s) / 1000) /\
  currentState s2 = VOCAB_CC_NOT_CONTROLLING /\ cmcSuccess s2 = true /\
  (exists q a, In (SetPositions q, a) (trace_of h)) /\
  forall q a ps, In (SetPositions q, a) (trace_of h) -> reaches q ps -> 0.09 <= norm (vsub (fp (pose_at xd 1)) (fp (nth 1 ps fid))).
Proof.
  exists rails, 0%nat, (row 0 ++ row 1), hurried, setting_off2, sliding2, both_ways, (set_off sliding2), (row 0 ++ row 0), on_rails.
  destruct both_run as (A & B & C). split; [reflexivity|]. split; [exact movl_rails|]. split.
  { split; [|split; [reflexivity|discriminate]]. exists [0; 0], (give (row 0 ++ row 0)). split; [|split; [cbn; auto|split; reflexivity]].
    exists (give [0; 0]). split; [cbn; auto|]. split; [reflexivity|]. split; [reflexivity|]. intros [|[|i]] H; [reflexivity|reflexivity|cbn in H; lia]. }
  split. { intros i H. cbn in H. destruct i as [|[|i]]; [|rewrite !pose_second; exact apart_x|lia]. rewrite !pose_first. exact still_x. }
  split; [exact A|]. split; [exact B|]. split; [exact C|]. split.
  { exists slide2, slide2_over, (number 100.49), (number 100.53). split; [reflexivity|]. split; [cbn; auto 9|]. split; [cbn; auto 9|]. cbn. lra. }
  split; [reflexivity|]. split; [reflexivity|]. split; [exists [0; so_far], yes; cbn; auto 12|].
  intros q a ps H E. assert (Q : q = [0; so_far]).
  { cbn in H. repeat (destruct H as [H|H]; [first [discriminate|congruence]|]). contradiction. }
  subst q. unfold on_rails in E. subst ps. rewrite pose_second. unfold at_x, vsub. cbn [map nth fp vx vy vz]. replace (0 - 0) with 0 by ring.
  pose proof so_far_bounds. rewrite norm_x by lra. lra.
Qed.
