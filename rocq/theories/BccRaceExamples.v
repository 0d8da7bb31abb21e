(** Commands given while the control thread runs: runs. *)
From Coq Require Import Reals ZArith List Bool Lra Lia.
From Verif Require Import Kdl KdlFacts Vocab Bcc BccSpec BccFacts BccFacts2 BccFacts5 BccFacts6 BccFacts7 BccExamples BccExamples2 BccRaceSpec BccRaceFacts.
Import ListNotations.
Open Scope R_scope.
Local Notation S := Datatypes.S.

Lemma wide_one : wide one. Proof. intros [|j] H; cbn in *; [unfold margin; lra|lia]. Qed.
Lemma wide_two : wide two. Proof. intros [|[|j]] H; cbn in *; [unfold margin; lra|unfold margin; lra|lia]. Qed.
(** the thread, up to the next change of state *)
Ltac thm := repeat (match goal with |- together _ _ (Mod (setCurrentState _) _) _ _ _ _ => fail 1 | _ => th1 end).

(** *** A joint move ends just when another movement is accepted *)
Definition take_over : list event :=
  [(GetEncoders, give [10; 20]); (FwdKin [10; 20], give [0; 0; 0; 0; 0; 0]); (GetControlModes, mode 2 VOCAB_CM_POSITION); (SetControlModes [0%nat; 1%nat] VOCAB_CM_VELOCITY, yes);
   (Sleep (1 / 10), yes); (GetControlModes, mode 2 VOCAB_CM_VELOCITY); (Now, number 5)].
Definition taken : st := setCurrentState VOCAB_CC_MOVV_CONTROLLING (set_startTime 5 (set_trajectories [path] moving_two)).
Lemma take_over_runs : exec (movv two [1; 0; 0; 0; 0; 0]) moving_two take_over (Done true) taken.
Proof. ex. Qed.
Definition lost : list happening := map Thread (firstn 5 done_two) ++ map Caller take_over ++ [Returned true; Thread (SetRefSpeeds [10; 10], yes)].
Lemma lost_happens : together two (Some (movv two [1; 0; 0; 0; 0; 0])) (Ret tt) 1 moving_two lost (setCurrentState VOCAB_CC_NOT_CONTROLLING taken).
Proof. unfold lost. cbn. thm. caller. thread. apply t_end. Qed.
Lemma moving_two_history : exists h, history two idle h moving_two.
Proof. exists [(OMovj [1], move_two, true)]. eapply hcons; [exact movj_two|constructor]. Qed.
Theorem lost_refuted : exists c o v n s l s', complete c /\ wide c /\ (exists h, history c idle h s) /\ movement o = Some v /\
  together c (Some (do_op c o)) (Ret tt) n s l s' /\ In (Returned true) l /\ all_fine l /\
  currentState s' = VOCAB_CC_NOT_CONTROLLING /\ (forall h, In h l -> motion_happens h = false).
Proof.
  exists two, (OMovv [1; 0; 0; 0; 0; 0]), VOCAB_CC_MOVV_CONTROLLING, 1%nat, moving_two, lost, (setCurrentState VOCAB_CC_NOT_CONTROLLING taken).
  split; [apply two_complete|]. split; [apply wide_two|]. split; [apply moving_two_history|]. split; [reflexivity|]. split; [exact lost_happens|].
  split; [cbn; auto 20|]. split; [repeat constructor|]. split; [reflexivity|]. apply Forall_forall. repeat constructor.
Qed.
(** *** The control mode of the new movement makes the cycle of the last one fail *)
Definition stop_back : list event :=
  [(GetControlModes, mode 2 VOCAB_CM_VELOCITY); (SetControlModes [0%nat; 1%nat] VOCAB_CM_POSITION, yes); (Sleep (1 / 10), yes); (GetControlModes, mode 2 VOCAB_CM_POSITION); (Stop, yes)].
Definition aborted : list happening :=
  map Thread (firstn 3 done_two) ++ map Caller take_over ++ [Returned true] ++ map Thread ((GetControlModes, mode 2 VOCAB_CM_VELOCITY) :: stop_back).
Lemma aborted_happens : together two (Some (movv two [1; 0; 0; 0; 0; 0])) (Ret tt) 1 moving_two aborted (set_off (set_cmcSuccess false taken)).
Proof. unfold aborted. cbn. thm. caller. thread. apply t_end. Qed.
Theorem aborted_refuted : exists c o v n s l s', complete c /\ wide c /\ (exists h, history c idle h s) /\ movement o = Some v /\
  together c (Some (do_op c o)) (Ret tt) n s l s' /\ In (Returned true) l /\ all_fine l /\
  (exists a, In (Thread (Stop, a)) (after_return l)) /\ cmcSuccess s' = false /\ (forall h, In h l -> motion_happens h = false).
Proof.
  exists two, (OMovv [1; 0; 0; 0; 0; 0]), VOCAB_CC_MOVV_CONTROLLING, 1%nat, moving_two, aborted, (set_off (set_cmcSuccess false taken)).
  split; [apply two_complete|]. split; [apply wide_two|]. split; [apply moving_two_history|]. split; [reflexivity|]. split; [exact aborted_happens|].
  split; [cbn; auto 20|]. split; [repeat constructor|]. split; [exists yes; cbn; auto 20|]. split; [reflexivity|]. apply Forall_forall. repeat constructor.
Qed.
(** *** The trajectory of the last movement is used after the new one has destroyed it *)
Definition path2 : traj := Along [0; 0; 0; 0; 0; 0] [2; 0; 0; 0; 0; 0].
Definition gliding2 : st := setCurrentState VOCAB_CC_MOVV_CONTROLLING (set_startTime 5 (set_trajectories [path2] gliding)).
Definition destroyed : list happening :=
  map Thread (firstn 6 (glide true true)) ++ map Caller velocity_start ++ [Returned true; Thread (TrajPos path (6 - 5), give [1; 0; 0; 0; 0; 0])].
Lemma destroyed_happens : together one (Some (movv one [2; 0; 0; 0; 0; 0])) (Ret tt) 1 gliding destroyed gliding2.
Proof. unfold destroyed. cbn. thm. caller. apply p_call. apply t_end. Qed.
Theorem destroyed_refuted : exists c o v n s l s', complete c /\ wide c /\ (exists h, history c idle h s) /\ movement o = Some v /\
  together c (Some (do_op c o)) (Ret tt) n s l s' /\ In (Returned true) l /\ all_fine l /\
  exists t time a, In (Thread (TrajPos t time, a)) (after_return l) /\ ~ In t (trajectories s').
Proof.
  exists one, (OMovv [2; 0; 0; 0; 0; 0]), VOCAB_CC_MOVV_CONTROLLING, 1%nat, gliding, destroyed, gliding2.
  split; [apply one_complete|]. split; [apply wide_one|]. split; [exists [(OMovv [1; 0; 0; 0; 0; 0], velocity_start, true)]; eapply hcons; [exact movv_one|constructor]|].
  split; [reflexivity|]. split; [exact destroyed_happens|]. split; [cbn; auto 20|]. split; [repeat constructor|].
  exists path, (6 - 5), (give [1; 0; 0; 0; 0; 0]). split; [cbn; auto|]. intros [E|[]]. injection E. lra.
Qed.
(** *** A streaming command preset at rest, with a cycle of the last movement in course *)
Definition preset_two : list event :=
  [(GetControlModes, mode 2 VOCAB_CM_POSITION); (SetControlModes [0%nat; 1%nat] VOCAB_CM_VELOCITY, yes); (Sleep (1 / 10), yes); (GetControlModes, mode 2 VOCAB_CM_VELOCITY)].
Definition stop_preset (c : cfg) : prog bool := let* _ := do_op c OStop in do_op c (OSet VOCAB_CC_CONFIG_STREAMING_CMD (IZR VOCAB_CC_TWIST)).
Definition unset : list happening := map Thread (firstn 5 done_two) ++ map Caller (stop_two ++ preset_two) ++ [Returned true; Thread (SetRefSpeeds [10; 10], yes)].
Lemma unset_happens : together two (Some (stop_preset two)) (Ret tt) 1 moving_two unset (setCurrentState VOCAB_CC_NOT_CONTROLLING (set_trajectories [] moving_two)).
Proof.
  unfold unset, stop_preset, do_op, setParameter. rewrite to_int_Z by (vm_compute; split; discriminate). cbn. thm. caller. thread. apply t_end.
Qed.
Theorem unset_refuted : exists c k v n s l s', complete c /\ wide c /\ (exists h, history c idle h s) /\
  together c (Some (let* _ := do_op c OStop in do_op c (OSet k v))) (Ret tt) n s l s' /\ In (Returned true) l /\ all_fine l /\ ~ reads_as k s' (Some v).
Proof.
  exists two, VOCAB_CC_CONFIG_STREAMING_CMD, (IZR VOCAB_CC_TWIST), 1%nat, moving_two, unset, (setCurrentState VOCAB_CC_NOT_CONTROLLING (set_trajectories [] moving_two)).
  split; [apply two_complete|]. split; [apply wide_two|]. split; [apply moving_two_history|]. split; [exact unset_happens|]. split; [cbn; auto 20|]. split; [repeat constructor|].
  intros (_ & E & _). change (Done (Some (IZR VOCAB_CC_TWIST)) = Done (Some (IZR VOCAB_CC_NOT_SET))) in E. injection E as E. apply eq_IZR in E. discriminate.
Qed.
(** *** A command from rest, and the cycle after it *)
Definition from_rest_run : list happening := map Caller velocity_start ++ [Returned true] ++ map Thread (glide true true).
Lemma from_rest_happens : together one (Some (do_op one (OMovv [1; 0; 0; 0; 0; 0]))) (Ret tt) 1 idle from_rest_run gliding.
Proof. unfold from_rest_run. cbn. caller. thread. all: apply t_end. Qed.
