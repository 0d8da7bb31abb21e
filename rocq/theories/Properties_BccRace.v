(** Commands given to the controller while its control thread runs. *)
From Coq Require Import Reals ZArith List Bool.
From Verif Require Import Kdl Vocab Bcc BccSpec BccExamples BccRaceSpec BccRaceFacts BccRaceExamples.
Import ListNotations.
Open Scope R_scope.

(** C149: a command given at rest takes effect as if the control thread did not run until it is done.  What is proved: if no cycle of the
    last movement is in course. *)
Theorem C149_whole_partial : forall c o n s l s' b, command o -> currentState s = VOCAB_CC_NOT_CONTROLLING ->
  together c (Some (do_op c o)) (Ret tt) n s l s' -> In (Returned b) l ->
  exists tr s1 k l1 l2, exec (do_op c o) s tr (Done b) s1 /\ l = map Caller tr ++ l1 ++ Returned b :: l2 /\ together c None (Ret tt) k s1 (l1 ++ l2) s'.
Proof. exact from_rest. Qed.
Print Assumptions C149_whole_partial.
Example C149_whole_example : currentState idle = VOCAB_CC_NOT_CONTROLLING /\
  together one (Some (do_op one (OMovv [1; 0; 0; 0; 0; 0]))) (Ret tt) 1 idle from_rest_run gliding /\ In (Returned true) from_rest_run.
Proof. split; [reflexivity|]. split; [exact from_rest_happens|]. cbn. auto 20. Qed.
(** C149: otherwise a streaming command that is preset after stopping a joint move can be lost: true is returned, and another one is read. *)
Theorem C149_preset_refuted : exists c k v n s l s', complete c /\ wide c /\ (exists h, history c idle h s) /\
  together c (Some (let* _ := do_op c OStop in do_op c (OSet k v))) (Ret tt) n s l s' /\ In (Returned true) l /\ all_fine l /\ ~ reads_as k s' (Some v).
Proof. exact unset_refuted. Qed.
Print Assumptions C149_preset_refuted.

(** C150: a movement that is accepted while another one is in course replaces it.  What is proved: the robot does not go back to the one
    before. *)
Theorem C150_never_back_partial : forall c o v n s l s', movement o = Some v -> together c (Some (do_op c o)) (Ret tt) n s l s' -> In (Returned true) l ->
  currentState s' = v \/ currentState s' = VOCAB_CC_NOT_CONTROLLING.
Proof. exact never_back. Qed.
Print Assumptions C150_never_back_partial.
Example C150_never_back_example : together one (Some (do_op one (OMovv [2; 0; 0; 0; 0; 0]))) (Ret tt) 1 gliding destroyed gliding2 /\ In (Returned true) destroyed.
Proof. split; [exact destroyed_happens|]. cbn. auto 20. Qed.
(** C150: it may be lost, if the one before is a joint move that ends at that moment: every call succeeds, and nothing moves. *)
Theorem C150_lost_refuted : exists c o v n s l s', complete c /\ wide c /\ (exists h, history c idle h s) /\ movement o = Some v /\
  together c (Some (do_op c o)) (Ret tt) n s l s' /\ In (Returned true) l /\ all_fine l /\
  currentState s' = VOCAB_CC_NOT_CONTROLLING /\ (forall h, In h l -> motion_happens h = false).
Proof. exact lost_refuted. Qed.
Print Assumptions C150_lost_refuted.
(** C150: it may be stopped, as its control mode makes the cycle of the one before fail. *)
Theorem C150_aborted_refuted : exists c o v n s l s', complete c /\ wide c /\ (exists h, history c idle h s) /\ movement o = Some v /\
  together c (Some (do_op c o)) (Ret tt) n s l s' /\ In (Returned true) l /\ all_fine l /\
  (exists a, In (Thread (Stop, a)) (after_return l)) /\ cmcSuccess s' = false /\ (forall h, In h l -> motion_happens h = false).
Proof. exact aborted_refuted. Qed.
Print Assumptions C150_aborted_refuted.
(** C150: and the thread may use a trajectory of the one before that the new one has destroyed. *)
Theorem C150_destroyed_refuted : exists c o v n s l s', complete c /\ wide c /\ (exists h, history c idle h s) /\ movement o = Some v /\
  together c (Some (do_op c o)) (Ret tt) n s l s' /\ In (Returned true) l /\ all_fine l /\
  exists t time a, In (Thread (TrajPos t time, a)) (after_return l) /\ ~ In t (trajectories s').
Proof. exact destroyed_refuted. Qed.
Print Assumptions C150_destroyed_refuted.
