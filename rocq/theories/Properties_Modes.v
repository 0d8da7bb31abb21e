(** Properties of the control modes of the Cartesian controller (C70). *)
From Coq Require Import Reals ZArith List Bool.
From Verif Require Import Kdl Vocab Bcc BccSpec BccSpec2 BccModes BccExamples.
Import ListNotations.
Open Scope R_scope.

(** C70: a command that starts a movement asks for no mode but that of the movement, and if it
    succeeds the robot has reported every joint in that mode; a joint move may also succeed
    without moving. *)
Theorem C70_started : forall c o s tr b s' v, started_by o = Some v -> exec (do_op c o) s tr (Done b) s' ->
  only_mode (mode_of c v) tr /\
  (b = true -> (currentState s' = v /\ ends_in_mode (numJoints c) (mode_of c v) tr) \/ (v = VOCAB_CC_MOVJ_CONTROLLING /\ s' = s /\ motions tr = [])).
Proof. exact modes_started. Qed.
Print Assumptions C70_started.
Example C70_started_example : started_by (OMovv [1; 0; 0; 0; 0; 0]) = Some VOCAB_CC_MOVV_CONTROLLING /\
  exec (do_op one (OMovv [1; 0; 0; 0; 0; 0])) idle velocity_start (Done true) gliding.
Proof. exact (conj eq_refl movv_one). Qed.
(** C70: the same for the streaming commands. *)
Theorem C70_preset : forall c v s tr b s', exec (setParameter c VOCAB_CC_CONFIG_STREAMING_CMD (IZR v)) s tr (Done b) s' ->
  (forall m, streaming_mode v = Some m -> only_mode m tr) /\
  (b = true -> streamingCommand s' = v /\ exists m, streaming_mode v = Some m /\ ends_in_mode (numJoints c) m tr).
Proof. exact modes_preset. Qed.
Print Assumptions C70_preset.
Example C70_preset_example : exec (setParameter one VOCAB_CC_CONFIG_STREAMING_CMD (IZR VOCAB_CC_TWIST)) idle preset_one (Done true) streaming.
Proof. exact preset_twist. Qed.
