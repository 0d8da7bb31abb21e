(** Concrete runs of the controller: examples for the properties and counterexamples. *)
From Coq Require Import Reals ZArith List Bool Lra Lia.
From Verif Require Import Kdl Vocab Bcc BccSpec BccFacts BccAll BccFacts2 BccFacts3 BccFacts4 BccFacts5 BccFacts6 BccFacts7 BccFacts8.
Import ListNotations.
Open Scope R_scope.
Local Notation S := Datatypes.S.

(** answers *)
Definition yes : answer := Ans true [] [] false 0.
Definition no : answer := Ans false [] [] false 0.
Definition give (v : list R) : answer := Ans true v [] false 0.
Definition mode (n : nat) (m : Z) : answer := Ans true [] (repeat m n) false 0.
Definition number (x : R) : answer := Ans true [] [] false x.
Definition finished : answer := Ans true [] [] true 0.

(** a robot of one joint, and one of two *)
Definition one : cfg := Cfg 1 false false false [-100] [100] [-10] [10] [10].
Definition two : cfg := Cfg 2 false false false [-100; -100] [100; 100] [0; 0] [10; 10] [10; 10].
Definition idle : st := St VOCAB_CC_NOT_CONTROLLING VOCAB_CC_NOT_SET (1/20) 10 50 20 BASE_FRAME [] 0 [] [] 0 true.

Lemma rmax_dur : Rmax 0 (1 / 100) = 1 / 100. Proof. apply Rmax_right. lra. Qed.
Lemma rmax_ten : Rmax 0 10 = 10. Proof. apply Rmax_right. lra. Qed.
Ltac real1 := match goal with
  | |- context [Rltb ?a ?b] => destruct (Rltb_spec a b); try (exfalso; cbn in *; unfold epsilon in *; rewrite ?rmax_dur, ?rmax_ten in *; lra)
  | |- context [Rleb ?a ?b] => destruct (Rleb_spec a b); try (exfalso; cbn in *; unfold epsilon in *; rewrite ?rmax_dur, ?rmax_ten in *; lra)
  | |- context [Reqb ?a ?b] => destruct (Reqb_spec a b); try (exfalso; cbn in *; unfold epsilon in *; rewrite ?rmax_dur, ?rmax_ten in *; lra)
  end.
Ltac ex1 := match goal with
  | |- exec (Call _ _) _ _ _ _ => cbn [exec]; do 2 eexists; split; [reflexivity|]
  | |- exec (Ret _) _ _ _ _ => cbn [exec]; split; [reflexivity|]; split; reflexivity
  | |- exec (Stuck _) _ _ _ _ => cbn [exec]; split; [reflexivity|]; split; reflexivity
  | |- exec (Get _) _ _ _ _ => cbn [exec]
  | |- exec (Mod _ _) _ _ _ _ => cbn [exec]
  | |- exists (a : answer) (t : list event), _ = _ :: t /\ _ => do 2 eexists; split; [reflexivity|]
  | |- _ = [] /\ _ = _ /\ _ = _ => split; [reflexivity|]; split; reflexivity
  | |- context [Pos.to_nat 1] => change (Pos.to_nat 1) with 1%nat
  | _ => real1
  | |- exec _ _ _ _ _ => progress cbn
  end.
Ltac ex := cbn; repeat ex1.

Lemma one_complete : complete one. Proof. repeat split. Qed.
Lemma two_complete : complete two. Proof. repeat split. Qed.

Ltac absval x := let A := fresh in assert (A : 0 <= x) by lra; rewrite ?(Rabs_pos_eq x A); clear A.
(** *** A joint move of two joints *)
Lemma speeds_two : computeIsocronousSpeeds two [0; 0] [10; 20] = Some ([5; 10], true).
Proof.
  unfold computeIsocronousSpeeds. cbn.
  assert (A : Rabs (10 - 0) = 10) by (rewrite Rabs_pos_eq; lra). assert (B : Rabs (20 - 0) = 20) by (rewrite Rabs_pos_eq; lra).
  rewrite A, B. repeat (cbn [fst snd]; real1).
  cbn [map]. replace (10 / (20 / 10)) with 5 by field. replace (20 / (20 / 10)) with 10 by field. reflexivity.
Qed.
Local Arguments computeIsocronousSpeeds : simpl never.
(** the robot's reference speeds in force are 10 for both joints *)
Definition move_two : list event :=
  [(GetEncoders, give [0; 0]); (InvKin [1] [0; 0] BASE_FRAME, give [10; 20]); (GetRefSpeeds, give [10; 10]); (SetRefSpeeds [5; 10], yes);
   (GetControlModes, mode 2 VOCAB_CM_POSITION); (Sleep (1 / 10), yes); (GetControlModes, mode 2 VOCAB_CM_POSITION); (PositionMove [10; 20], yes)].
Definition moving_two : st := set_vmoStored [10; 10] (setCurrentState VOCAB_CC_MOVJ_CONTROLLING idle).
Example movj_two : exec (movj two [1]) idle move_two (Done true) moving_two.
Proof. cbn. do 2 eexists. split; [reflexivity|]. cbn. do 2 eexists. split; [reflexivity|]. cbn. rewrite speeds_two. ex. Qed.
Definition done_two : list event :=
  [(GetEncoders, give [10; 20]); (GetEncoderSpeeds, give [0; 0]); (GetEncoderAccelerations, give [0; 0]);
   (GetControlModes, mode 2 VOCAB_CM_POSITION); (CheckMotionDone, finished); (SetRefSpeeds [10; 10], yes)].
Example cycle_two : exec (run two) moving_two done_two (Done tt) (setCurrentState VOCAB_CC_NOT_CONTROLLING moving_two).
Proof. ex. Qed.
Example isochronous_two : isochronous 2 [10; 10] [0; 0] [10; 20] [5; 10] 2.
Proof.
  split; [lra|]. split; [reflexivity|]. split.
  - intros [|[|j]] H; cbn; [..|lia]; (split; [intros _|lra]); (split; [lra|]); rewrite Rabs_pos_eq; lra.
  - exists 1%nat. cbn. repeat split; try lia; lra.
Qed.

(** *** Stopping it, and moving again before it is done *)
Definition stop_two : list event :=
  [(GetControlModes, mode 2 VOCAB_CM_POSITION); (Sleep (1 / 10), yes); (GetControlModes, mode 2 VOCAB_CM_POSITION); (Stop, yes)].
Lemma stop_two_runs s : exec (stopControl two) s stop_two (Done true) (set_off s).
Proof. ex. Qed.
Definition move_two_again : list event :=
  [(GetEncoders, give [0; 0]); (InvKin [1] [0; 0] BASE_FRAME, give [10; 20]); (GetRefSpeeds, give [5; 10]); (SetRefSpeeds [5; 10], yes);
   (GetControlModes, mode 2 VOCAB_CM_POSITION); (Sleep (1 / 10), yes); (GetControlModes, mode 2 VOCAB_CM_POSITION); (PositionMove [10; 20], yes)].
Definition moving_two_again : st := set_vmoStored [5; 10] moving_two.
Example movj_two_again : exec (movj two [1]) moving_two move_two_again (Done true) moving_two_again.
Proof. cbn. do 2 eexists. split; [reflexivity|]. cbn. do 2 eexists. split; [reflexivity|]. cbn. rewrite speeds_two. ex. Qed.
Definition done_two_again : list event :=
  [(GetEncoders, give [10; 20]); (GetEncoderSpeeds, give [0; 0]); (GetEncoderAccelerations, give [0; 0]);
   (GetControlModes, mode 2 VOCAB_CM_POSITION); (CheckMotionDone, finished); (SetRefSpeeds [5; 10], yes)].
Example cycle_two_again : exec (run two) moving_two_again done_two_again (Done tt) (setCurrentState VOCAB_CC_NOT_CONTROLLING moving_two_again).
Proof. ex. Qed.

Lemma hone c s o tr b s1 h s2 : exec (do_op c o) s tr (Done b) s1 -> history c s1 h s2 -> history c s ((o, tr, b) :: h) s2.
Proof. apply hcons. Qed.
Lemma hcycle c s tr s1 h s2 : exec (run c) s tr (Done tt) s1 -> history c s1 h s2 -> history c s ((OCycle, tr, true) :: h) s2.
Proof. intros E H. eapply hcons; [|exact H]. cbn [do_op]. apply exec_then. exists tt. auto. Qed.
Example speeds_two_history : history two idle [(OMovj [1], move_two, true); (OCycle, done_two, true)] (setCurrentState VOCAB_CC_NOT_CONTROLLING moving_two).
Proof. eapply hcons; [exact movj_two|]. eapply hcycle; [exact cycle_two|constructor]. Qed.

Lemma list2_neq a b a' b' : a <> a' -> [a; b] <> [a'; b' : R]. Proof. intros H E. injection E as E _. auto. Qed.
Lemma stop_keeps_speeds : exists c s h s' v, complete c /\ history c s h s' /\ length v = numJoints c /\ honest (numJoints c) v (trace_of h) /\
  (exists xd tr1 tr2, h = [(OMovj xd, tr1, true); (OStop, tr2, true)]) /\ in_force v (trace_of h) <> v.
Proof.
  exists two, idle, [(OMovj [1], move_two, true); (OStop, stop_two, true)], (set_off moving_two), [10; 10].
  split; [apply two_complete|]. split; [eapply hcons; [exact movj_two|]; eapply hcons; [apply stop_two_runs|constructor]|].
  split; [reflexivity|]. split; [cbn; repeat split; auto|]. split; [eauto|]. cbn. apply list2_neq. lra.
Qed.
Lemma again_keeps_speeds : exists c s h s' v, complete c /\ history c s h s' /\ length v = numJoints c /\ honest (numJoints c) v (trace_of h) /\
  (exists xd tr1 tr2 tr3, h = [(OMovj xd, tr1, true); (OMovj xd, tr2, true); (OCycle, tr3, true)] /\ In (CheckMotionDone, finished) tr3) /\
  Forall (fun e => ok (snd e) = true) (trace_of h) /\ in_force v (trace_of h) <> v.
Proof.
  exists two, idle, [(OMovj [1], move_two, true); (OMovj [1], move_two_again, true); (OCycle, done_two_again, true)], (setCurrentState VOCAB_CC_NOT_CONTROLLING moving_two_again), [10; 10].
  split; [apply two_complete|]. split; [eapply hcons; [exact movj_two|]; eapply hcons; [exact movj_two_again|]; eapply hcycle; [exact cycle_two_again|constructor]|].
  split; [reflexivity|]. split; [cbn; repeat split; auto|]. split; [exists [1], move_two, move_two_again, done_two_again; split; [reflexivity|]; cbn; auto 8|].
  split; [cbn; repeat constructor|]. cbn. apply list2_neq. lra.
Qed.

(** *** A movement at constant velocity *)
Definition velocity_start : list event :=
  [(GetEncoders, give [0]); (FwdKin [0], give [0; 0; 0; 0; 0; 0]);
   (GetControlModes, mode 1 VOCAB_CM_VELOCITY); (Sleep (1 / 10), yes); (GetControlModes, mode 1 VOCAB_CM_VELOCITY); (Now, number 5)].
Definition path : traj := Along [0; 0; 0; 0; 0; 0] [1; 0; 0; 0; 0; 0].
Definition gliding : st := setCurrentState VOCAB_CC_MOVV_CONTROLLING (set_startTime 5 (set_trajectories [path] idle)).
Example movv_one : exec (movv one [1; 0; 0; 0; 0; 0]) idle velocity_start (Done true) gliding.
Proof. ex. Qed.
Definition zero6 (b : bool) : answer := Ans b [0; 0; 0; 0; 0; 0] [] false 0.
Definition glide (diffed moved : bool) : list event :=
  [(GetEncoders, give [1]); (GetEncoderSpeeds, give [0]); (GetEncoderAccelerations, give [0]);
   (GetControlModes, mode 1 VOCAB_CM_VELOCITY); (Now, number 6); (FwdKin [1], give [1; 0; 0; 0; 0; 0]);
   (TrajPos path (6 - 5), give [1; 0; 0; 0; 0; 0]); (TrajVel path (6 - 5), give [1; 0; 0; 0; 0; 0]);
   (PoseDiff [1; 0; 0; 0; 0; 0] [1; 0; 0; 0; 0; 0], zero6 diffed);
   (DiffInvKin [1] (map (fun y => 0 * (1/20 * (1000 / 50)) + y) [1; 0; 0; 0; 0; 0]) BASE_FRAME, give [4]);
   (VelocityMove [4], Ans moved [] [] false 0)].
Example cycle_one b1 b2 : exec (run one) gliding (glide b1 b2) (Done tt) gliding.
Proof. ex. Qed.
(** refused commands and failed comparisons of poses go unnoticed *)
Lemma refused_unnoticed : exists c s tr s', complete c /\ wide c /\ currentState s <> VOCAB_CC_NOT_CONTROLLING /\ exec (run c) s tr (Done tt) s' /\
  (exists v a, In (VelocityMove v, a) tr /\ ok a = false) /\ (exists x y a, In (PoseDiff x y, a) tr /\ ok a = false) /\
  currentState s' = currentState s /\ cmcSuccess s' = true /\ forall a, ~ In (Stop, a) tr.
Proof.
  exists one, gliding, (glide false false), gliding. split; [apply one_complete|]. split; [intros [|j] H; cbn in *; [unfold margin; lra|lia]|].
  split; [discriminate|]. split; [apply cycle_one|]. split; [exists [4], (Ans false [] [] false 0); split; [cbn; auto 12|reflexivity]|].
  split; [exists [1; 0; 0; 0; 0; 0], [1; 0; 0; 0; 0; 0], (zero6 false); split; [cbn; auto 12|reflexivity]|].
  split; [reflexivity|]. split; [reflexivity|]. cbn. intros a H. repeat (destruct H as [H|H]; [discriminate|]). exact H.
Qed.
Definition stop_one : list event :=
  [(GetControlModes, mode 1 VOCAB_CM_POSITION); (Sleep (1 / 10), yes); (GetControlModes, mode 1 VOCAB_CM_POSITION); (Stop, yes)].
(** a joint beyond its limit *)
Example limit_one : exec (run one) gliding ([(GetEncoders, give [150]); (GetEncoderSpeeds, give [0]); (GetEncoderAccelerations, give [0])] ++ stop_one)
  (Done tt) (set_off (set_cmcSuccess false gliding)).
Proof. ex. Qed.
Example limit_one_failed : cycle_failed one 0 gliding ([(GetEncoders, give [150]); (GetEncoderSpeeds, give [0]); (GetEncoderAccelerations, give [0])] ++ stop_one).
Proof.
  eapply cf_limits; [cbn; left; reflexivity|reflexivity|]. intros H. specialize (H 0%nat ltac:(cbn; lia)). unfold inside_at, margin in H. cbn in H. lra.
Qed.

(** *** Streaming *)
Lemma to_int_Z z : (-2147483648 <= z <= 2147483647)%Z -> to_int (IZR z) = Some z.
Proof.
  intros H. unfold to_int. assert (trunc (IZR z) = z) as ->.
  { unfold trunc. destruct Rltb; rewrite <- ?opp_IZR, up_IZR; lia. }
  destruct (Z.ltb_spec z (-2147483648)); [lia|]. destruct (Z.ltb_spec 2147483647 z); [lia|reflexivity].
Qed.
Lemma to_int_half : to_int (1 / 2) = Some 0%Z.
Proof.
  unfold to_int. assert (trunc (1 / 2) = 0%Z) as ->; [|reflexivity]. unfold trunc. destruct (Rltb_spec (1 / 2) 0); [lra|].
  assert (1%Z = up (1 / 2)) as <-; [|reflexivity]. apply tech_up; lra.
Qed.
Local Arguments to_int : simpl never.
Lemma to_int_twist : to_int (IZR VOCAB_CC_TWIST) = Some VOCAB_CC_TWIST. Proof. apply to_int_Z. vm_compute. split; discriminate. Qed.
Definition preset_one : list event :=
  [(GetControlModes, mode 1 VOCAB_CM_VELOCITY); (Sleep (1 / 10), yes); (GetControlModes, mode 1 VOCAB_CM_VELOCITY)].
Definition streaming : st := set_streaming VOCAB_CC_TWIST (setCurrentState VOCAB_CC_NOT_CONTROLLING idle).
Example preset_twist : exec (setParameter one VOCAB_CC_CONFIG_STREAMING_CMD (IZR VOCAB_CC_TWIST)) idle preset_one (Done true) streaming.
Proof. unfold setParameter. rewrite to_int_twist. ex. Qed.
Definition twist_one : list event :=
  [(GetControlModes, mode 1 VOCAB_CM_VELOCITY); (GetEncoders, give [0]); (DiffInvKin [0] [1; 0; 0; 0; 0; 0] BASE_FRAME, give [4]); (VelocityMove [4], yes)].
Example twist_moves : exec (twist one [1; 0; 0; 0; 0; 0]) streaming twist_one (Done tt) streaming.
Proof. ex. Qed.
Example twist_history : history one idle
  [(OSet VOCAB_CC_CONFIG_STREAMING_CMD (IZR VOCAB_CC_TWIST), preset_one, true); (OTwist [1; 0; 0; 0; 0; 0], twist_one, true)] streaming.
Proof.
  eapply hcons; [exact preset_twist|]. eapply hcons; [cbn [do_op]; apply exec_then; exists tt; split; [exact twist_moves|reflexivity]|]. constructor.
Qed.
(** a refused preset undoes the previous one *)
Lemma refused_preset : exists c s k v tr s', exec (setParameter c k v) s tr (Done false) s' /\
  (forall r, reads_as k s r -> ~ reads_as k s' r).
Proof.
  exists one, streaming, VOCAB_CC_CONFIG_STREAMING_CMD, 0, [], (setCurrentState VOCAB_CC_NOT_CONTROLLING streaming). split.
  - unfold setParameter. rewrite (to_int_Z 0) by lia. ex.
  - intros r. rewrite !reads_as_eq. cbn. intros ->. intros X. injection X as X. apply eq_IZR in X. discriminate.
Qed.

(** *** Parameters *)
Lemma half_refuted : exists c s v tr s', exec (setParameter c VOCAB_CC_CONFIG_WAIT_PERIOD v) s tr (Done true) s' /\
  ~ reads_as VOCAB_CC_CONFIG_WAIT_PERIOD s' (Some v).
Proof.
  exists one, idle, (1 / 2), [], (set_waitPeriodMs 0 idle). split.
  - unfold setParameter. rewrite to_int_half. ex.
  - rewrite reads_as_eq. cbn. intros X. injection X as X. lra.
Qed.
Example gain_set : exec (setParameter one VOCAB_CC_CONFIG_GAIN (7 / 2)) idle [] (Done true) (set_gain (7 / 2) idle).
Proof. ex. Qed.
Lemma tool_refuted : exists c s x tr s', complete c /\ currentState s <> VOCAB_CC_NOT_CONTROLLING /\ (exists h, history c idle h s) /\
  exec (tool x) s tr (Done true) s'.
Proof.
  exists one, gliding, [0; 0; 1; 0; 0; 0], [(RestoreOriginalChain, yes); (AppendLink [0; 0; 1; 0; 0; 0], yes)], gliding.
  split; [apply one_complete|]. split; [discriminate|]. split; [|ex]. exists [(OMovv [1; 0; 0; 0; 0; 0], velocity_start, true)]. eapply hcons; [exact movv_one|constructor].
Qed.
(** a control period below a millisecond *)
Definition too_fast : st := set_cmcPeriodMs 0 idle.
Lemma period_accepted : exec (setParameter one VOCAB_CC_CONFIG_CMC_PERIOD (1 / 2)) idle [(SetPeriod (1 / 2 * (1 / 1000)), yes)] (Done true) too_fast.
Proof. unfold setParameter. rewrite to_int_half. ex. Qed.
Lemma period_gliding : exec (movv one [1; 0; 0; 0; 0; 0]) too_fast velocity_start (Done true) (set_cmcPeriodMs 0 gliding).
Proof. ex. Qed.
Lemma period_refuted : exists c h s tr s', complete c /\ wide c /\ history c idle h s /\
  (exists tr1 tr2 xd, h = [(OSet VOCAB_CC_CONFIG_CMC_PERIOD (1 / 2), tr1, true); (OMovv xd, tr2, true)]) /\
  exec (run c) s tr (Trouble NotFinite) s' /\ Forall (fun e => ok (snd e) = true) (trace_of h ++ tr).
Proof.
  exists one, [(OSet VOCAB_CC_CONFIG_CMC_PERIOD (1 / 2), [(SetPeriod (1 / 2 * (1 / 1000)), yes)], true); (OMovv [1; 0; 0; 0; 0; 0], velocity_start, true)],
    (set_cmcPeriodMs 0 gliding),
    [(GetEncoders, give [1]); (GetEncoderSpeeds, give [0]); (GetEncoderAccelerations, give [0]);
   (GetControlModes, mode 1 VOCAB_CM_VELOCITY); (Now, number 6); (FwdKin [1], give [1; 0; 0; 0; 0; 0]);
   (TrajPos path (6 - 5), give [1; 0; 0; 0; 0; 0]); (TrajVel path (6 - 5), give [1; 0; 0; 0; 0; 0]);
   (PoseDiff [1; 0; 0; 0; 0; 0] [1; 0; 0; 0; 0; 0], zero6 true)], (set_cmcPeriodMs 0 gliding).
  split; [apply one_complete|]. split; [intros [|j] H; cbn in *; [unfold margin; lra|lia]|]. split.
  - eapply hcons; [exact period_accepted|]. eapply hcons; [exact period_gliding|constructor].
  - split; [eauto|]. split; [ex|]. cbn. repeat constructor.
Qed.

(** *** Limits of the configuration *)
Definition no_limits : cfg := Cfg 1 false false false [] [] [] [] [10].
Lemma user_limits_refuted : exists g dur cmc w frame robot c s tr s1 tr2 s2,
  open g dur cmc w false false frame false 1 (Some [10]) true robot 1 true = Some (c, s) /\
  exec (gcmp c) s tr (Done true) s1 /\ exec (run c) s1 tr2 (Trouble OutOfBounds) s2 /\ Forall (fun e => ok (snd e) = true) (tr ++ tr2).
Proof.
  eexists (1 / 20), 10, 50%Z, 20%Z, BASE_FRAME, (fun _ => None), no_limits, idle,
    [(GetControlModes, mode 1 VOCAB_CM_TORQUE); (Sleep (1 / 10), yes); (GetControlModes, mode 1 VOCAB_CM_TORQUE)],
    (setCurrentState VOCAB_CC_GCMP_CONTROLLING idle),
    [(GetEncoders, give [1000]); (GetEncoderSpeeds, give [0]); (GetEncoderAccelerations, give [0])], _.
  split; [reflexivity|]. split; [ex|]. split; [ex|]. cbn. repeat constructor.
Qed.
Example robot_limits_one : open (1 / 20) 10 50 20 false false BASE_FRAME false 1 (Some [10]) false (fun _ => Some (-100, 100, -10, 10)) 1 true = Some (one, idle).
Proof. reflexivity. Qed.

(** *** Fail-fast checks *)
Definition direct : cfg := Cfg 1 true true false [-100] [100] [-10] [10] [10].
Definition line : traj := Line [0; 0; 0; 0; 0; 0] [1; 0; 0; 0; 0; 0] 10.
Definition checked_line : list event :=
  [(GetEncoders, give [0]); (FwdKin [0], give [0; 0; 0; 0; 0; 0]); (GetPeriod, number (1 / 50)); (GetNumTcps, mode 1 1);
   (TrajDuration line, number (1 / 100)); (TrajPos line 0, give [0; 0; 0; 0; 0; 0]); (InvKin [0; 0; 0; 0; 0; 0] [0] BASE_FRAME, give [0]);
   (TrajPos line (0 + 1 / 50 * (1 / 2)), give [1; 0; 0; 0; 0; 0]); (InvKin [1; 0; 0; 0; 0; 0] [0] BASE_FRAME, give [9]);
   (GetControlModes, mode 1 VOCAB_CM_POSITION_DIRECT); (Sleep (1 / 10), yes); (GetControlModes, mode 1 VOCAB_CM_POSITION_DIRECT); (Now, number 0)].
Definition on_line : st := setCurrentState VOCAB_CC_MOVL_CONTROLLING (set_trajectories [line] idle).
Lemma movl_direct : exec (movl direct 3 [1; 0; 0; 0; 0; 0]) idle checked_line (Done true) on_line.
Proof. ex. Qed.
Lemma failfast_refuted : exists c fuel xd s tr s' p q a, complete c /\ wide c /\ exec (movl c fuel xd) s tr (Done true) s' /\
  enableFailFast c = true /\ In (GetPeriod, p) tr /\ In (q, a) (solved tr) /\
  ~ slow c (map (fun d => d / (num p / 2)) (displacement (numJoints c) q a)).
Proof.
  exists direct, 3%nat, [1; 0; 0; 0; 0; 0], idle, checked_line, on_line, (number (1 / 50)), [0], (give [9]).
  split; [repeat split|]. split; [intros [|j] H; cbn in *; [unfold margin; lra|lia]|]. split; [exact movl_direct|].
  split; [reflexivity|]. split; [cbn; auto|]. split; [cbn; auto|]. cbn. intros H. specialize (H 0%nat ltac:(cbn; lia)).
  destruct H as (_ & H). cbn in H. specialize (H ltac:(lra)).
  assert ((9 - 0) / (1 / 50 / 2) = 900) as X by field. lra.
Qed.
(** a solver of seven joints and one endpoint *)
Definition seven : cfg := Cfg 7 true true false (repeat (-100) 7) (repeat 100 7) (repeat (-10) 7) (repeat 10 7) (repeat 10 7).
Lemma overflow_refuted : exists c fuel xd s tr s', complete c /\ wide c /\ exec (movl c fuel xd) s tr (Trouble OutOfBounds) s' /\
  (forall q a, In (q, a) (solved tr) -> length (vals a) = numJoints c) /\ Forall (fun e => ok (snd e) = true) tr.
Proof.
  exists seven, 3%nat, [1; 0; 0; 0; 0; 0], idle,
    [(GetEncoders, give (repeat 0 7)); (FwdKin (repeat 0 7), give [0; 0; 0; 0; 0; 0]); (GetPeriod, number (1 / 50)); (GetNumTcps, mode 1 1);
   (TrajDuration line, number 10); (TrajPos line 0, give [0; 0; 0; 0; 0; 0]); (InvKin [0; 0; 0; 0; 0; 0] (repeat 0 7) BASE_FRAME, give (repeat 0 7))],
   (set_trajectories [line] idle).
  split; [repeat split|]. split.
  { intros j H. cbn in H. assert (J : forall x : R, nth j (repeat x 7) 0 = x) by (intros x; do 7 (destruct j as [|j]; [reflexivity|]); lia).
    unfold seven. cbn [qMin qMax]. rewrite !J. unfold margin. lra. }
  split; [|split; [cbn; intros q a [H|[]]; injection H as <- <-; reflexivity|repeat constructor]].
  ex.
Qed.
