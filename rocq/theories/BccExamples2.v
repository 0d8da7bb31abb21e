(** Concrete executions of the controller with its periodic thread, and more counterexamples. *)
From Coq Require Import Reals ZArith List Bool Lra Lia.
From Verif Require Import Kdl KdlFacts Vocab Bcc BccSpec BccFacts BccFacts2 BccFacts5 BccFacts6 BccFacts7 BccExamples.
Import ListNotations.
Open Scope R_scope.
Local Notation S := Datatypes.S.

Ltac th1 := first [apply p_call | apply p_get | apply p_mod | apply p_next | real1]; cbn.
Ltac ca1 := first [apply t_call | apply t_get | apply t_mod | apply t_ret | real1]; cbn.
Ltac thread := repeat th1.
Ltac caller := repeat ca1.

(** *** A command after stopControl has returned *)
Definition late : list happening :=
  map Thread (firstn 10 (glide true true)) ++ map Caller stop_one ++ [Returned true; Thread (VelocityMove [4], yes)].
Lemma late_happens : together one (Some (stopControl one)) (Ret tt) 1 gliding late (set_off gliding).
Proof. unfold late. cbn. thread; caller; thread; apply t_end. Qed.
Lemma late_refuted : exists c n s l s', complete c /\ wide c /\ (exists h, history c idle h s) /\ together c (Some (stopControl c)) (Ret tt) n s l s' /\
  exists h, In h (after_return l) /\ motion_happens h = true.
Proof.
  exists one, 1%nat, gliding, late, (set_off gliding). split; [apply one_complete|]. split; [intros [|j] H; cbn in *; [unfold margin; lra|lia]|].
  split; [exists [(OMovv [1; 0; 0; 0; 0; 0], velocity_start, true)]; eapply hcons; [exact movv_one|constructor]|]. split; [exact late_happens|].
  exists (Thread (VelocityMove [4], yes)). split; [cbn; auto|reflexivity].
Qed.
(** the thread may go on using trajectories that stopControl has destroyed *)
Definition dangling : list happening :=
  map Thread (firstn 6 (glide true true)) ++ map Caller stop_one ++ [Returned true; Thread (TrajPos path (6 - 5), give [1; 0; 0; 0; 0; 0])].
Lemma dangling_happens : together one (Some (stopControl one)) (Ret tt) 1 gliding dangling (set_off gliding).
Proof. unfold dangling. cbn. thread; caller; thread; apply t_end. Qed.
Lemma dangling_refuted : exists c n s l s', complete c /\ together c (Some (stopControl c)) (Ret tt) n s l s' /\ trajectories s' = [] /\
  exists t time a, In (Thread (TrajPos t time, a)) (after_return l).
Proof.
  exists one, 1%nat, gliding, dangling, (set_off gliding). split; [apply one_complete|]. split; [exact dangling_happens|]. split; [reflexivity|].
  exists path, (6 - 5), (give [1; 0; 0; 0; 0; 0]). cbn. auto.
Qed.

(** *** wait *)
(** a movement along a line that fails, then wait *)
Definition on_line_failed : st := set_off (set_cmcSuccess false on_line).
Lemma fails_before : exec (run direct) on_line ([(GetEncoders, give [150]); (GetEncoderSpeeds, give [0]); (GetEncoderAccelerations, give [0])] ++ stop_one) (Done tt) on_line_failed.
Proof. ex. Qed.
Lemma wait_too_late : exec (wait direct 1 0) on_line_failed [] (Done true) on_line_failed.
Proof. ex. Qed.
Lemma wait_refuted : exists c h s s' tr fuel timeout, complete c /\ wide c /\ history c idle h s /\
  (exists xd f t0 t1, h = [(OMovl f xd, t0, true); (OCycle, t1, true)]) /\ cmcSuccess s = false /\
  exec (wait c fuel timeout) s tr (Done true) s'.
Proof.
  exists direct, [(OMovl 3 [1; 0; 0; 0; 0; 0], checked_line, true); (OCycle, [(GetEncoders, give [150]); (GetEncoderSpeeds, give [0]); (GetEncoderAccelerations, give [0])] ++ stop_one, true)],
    on_line_failed, on_line_failed, [], 1%nat, 0.
  split; [repeat split|]. split; [intros [|j] H; cbn in *; [unfold margin; lra|lia]|]. split.
  { eapply hcons; [exact movl_direct|]. eapply hcons; [apply exec_then; exists tt; split; [exact fails_before|reflexivity]|constructor]. }
  split; [eauto 10|]. split; [reflexivity|exact wait_too_late].
Qed.
(** a timeout counts as success *)
Lemma timeout_refuted : exists c fuel timeout s tr s', complete c /\ currentState s = VOCAB_CC_MOVL_CONTROLLING /\ (exists h, history c idle h s) /\
  exec (wait c fuel timeout) s tr (Done true) s' /\ ~ completed (movementStartTime s) tr /\ exists a, In (Stop, a) tr.
Proof.
  exists direct, 2%nat, 1, on_line, ([(Now, number 0); (Now, number 2)] ++ stop_one), (set_off on_line).
  split; [repeat split|]. split; [reflexivity|]. split; [exists [(OMovl 3 [1; 0; 0; 0; 0; 0], checked_line, true)]; eapply hcons; [exact movl_direct|constructor]|].
  split; [ex|]. split; [|exists yes; cbn; auto 9].
  unfold stop_one; cbn. intros [(a & H & _)|(a0 & t & a & _ & H & _)]; repeat (destruct H as [H|H]; [discriminate|]); exact H.
Qed.
(** a movement completed while being waited for *)
Definition arriving : list event :=
  [(GetEncoders, give [9]); (GetEncoderSpeeds, give [0]); (GetEncoderAccelerations, give [0]); (GetControlModes, mode 1 VOCAB_CM_POSITION_DIRECT);
   (Now, number 20); (TrajDuration line, number 10)] ++ stop_one.
Definition waited : list happening := [Caller (Now, number 0)] ++ [Caller (Sleep (IZR 20 / 1000), yes)] ++ map Thread arriving ++ [Returned true].
Lemma wait_one : together direct (Some (wait direct 2 0)) (Ret tt) 1 on_line waited (set_off on_line).
Proof.
  unfold waited, arriving. cbn. apply t_get. cbn. apply t_call. cbn. real1. apply t_get. cbn. apply t_call. cbn.
  thread; caller; apply t_end.
Qed.

(** *** Control periods *)
Lemma trunc_pos x : 1 <= x -> (1 <= trunc x)%Z.
Proof.
  intros H. unfold trunc. destruct (Rltb_spec x 0); [lra|]. destruct (archimed x) as [A _].
  assert (1 < up x)%Z by (apply lt_IZR; lra). lia.
Qed.
Lemma period_kept c v s tr s' : exec (setParameter c VOCAB_CC_CONFIG_CMC_PERIOD v) s tr (Done true) s' -> 1 <= v -> (1 <= cmcPeriodMs s')%Z.
Proof.
  intros E H. unfold setParameter in E. cbn [bind look exec] in E. destruct (negb (Z.eqb (currentState s) VOCAB_CC_NOT_CONTROLLING)); [destruct E as (_ & E & _); discriminate|].
  change (Z.eqb VOCAB_CC_CONFIG_CMC_PERIOD VOCAB_CC_CONFIG_GAIN) with false in E. change (Z.eqb VOCAB_CC_CONFIG_CMC_PERIOD VOCAB_CC_CONFIG_TRAJ_DURATION) with false in E.
  change (Z.eqb VOCAB_CC_CONFIG_CMC_PERIOD VOCAB_CC_CONFIG_CMC_PERIOD) with true in E. cbv iota in E. cbn [bind ask exec] in E.
  destruct E as (a & t & _ & E). destruct (ok a); cbn [negb] in E; [|destruct E as (_ & E & _); discriminate].
  unfold to_int in E. destruct orb; cbn [need bind modify exec] in E; destruct E as (_ & E & X); [discriminate|]. subst s'. cbn. now apply trunc_pos.
Qed.

Example period_twenty : exec (setParameter one VOCAB_CC_CONFIG_CMC_PERIOD (IZR 20)) idle [(SetPeriod (20 * (1 / 1000)), yes)] (Done true) (set_cmcPeriodMs 20 idle).
Proof. unfold setParameter. rewrite (to_int_Z 20) by lia. ex. Qed.

(** *** Safety *)
Example proper_glide : Forall (proper one 1) (glide true true).
Proof. repeat constructor; cbn; auto; discriminate. Qed.
Example proper_history : complete one /\ history one idle [(OMovv [1; 0; 0; 0; 0; 0], velocity_start, true); (OCycle, glide true true, true)] gliding /\
  Forall (fun e => six_each 1 (fst (fst e)) /\ Forall (proper one 1) (snd (fst e))) [(OMovv [1; 0; 0; 0; 0; 0], velocity_start, true); (OCycle, glide true true, true)].
Proof.
  split; [apply one_complete|]. split.
  - eapply hcons; [exact movv_one|]. eapply hcycle; [apply cycle_one|constructor].
  - constructor; [split; [reflexivity|]; repeat constructor; cbn; auto; discriminate|]. constructor; [|constructor]. split; [exact I|exact proper_glide].
Qed.
