(** What the property about control modes talks about. *)
From Coq Require Import Reals ZArith List Bool.
From Verif Require Import Kdl Vocab Bcc BccSpec.
Import ListNotations.
Open Scope R_scope.

(** the movement that a command starts *)
Definition started_by (o : op) : option Z :=
  match o with
  | OMovj _ | ORelj _ => Some VOCAB_CC_MOVJ_CONTROLLING
  | OMovl _ _ => Some VOCAB_CC_MOVL_CONTROLLING
  | OMovv _ => Some VOCAB_CC_MOVV_CONTROLLING
  | OGcmp => Some VOCAB_CC_GCMP_CONTROLLING
  | OForc _ => Some VOCAB_CC_FORC_CONTROLLING
  | _ => None
  end.
(** the mode in which a command is streamed *)
Definition streaming_mode (command : Z) : option Z :=
  if Z.eqb command VOCAB_CC_POSE then Some VOCAB_CM_POSITION_DIRECT
  else if Z.eqb command VOCAB_CC_MOVI then Some VOCAB_CM_POSITION_DIRECT
  else if Z.eqb command VOCAB_CC_TWIST then Some VOCAB_CM_VELOCITY
  else if Z.eqb command VOCAB_CC_WRENCH then Some VOCAB_CM_TORQUE
  else None.
(** no other mode is asked for *)
Definition only_mode (m : Z) (tr : list event) : Prop := forall ids m' a, In (SetControlModes ids m', a) tr -> m' = m.
(** when last asked, the robot had every joint in the mode *)
Definition ends_in_mode (n : nat) (m : Z) (tr : list event) : Prop :=
  exists a, first_answer asks_modes (rev tr) = Some a /\ all_in_mode n m a.
