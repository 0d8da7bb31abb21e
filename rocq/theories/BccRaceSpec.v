(** What the properties of commands given while the control thread runs say.  Nothing here models code. *)
From Coq Require Import Reals ZArith List Bool.
From Verif Require Import Kdl Vocab Bcc BccSpec.
Import ListNotations.

(** the operations of a caller, and those that begin a movement which goes on until another one or the thread ends it *)
Definition command (o : op) : Prop := o <> OCycle.
Definition movement (o : op) : option Z :=
  match o with
  | OMovl _ _ => Some VOCAB_CC_MOVL_CONTROLLING
  | OMovv _ => Some VOCAB_CC_MOVV_CONTROLLING
  | OGcmp => Some VOCAB_CC_GCMP_CONTROLLING
  | OForc _ => Some VOCAB_CC_FORC_CONTROLLING
  | _ => None
  end.
(** every answer to the caller, and to the thread, is of success *)
Definition all_fine (l : list happening) : Prop := Forall (fun h => match h with Caller (_, a) | Thread (_, a) => ok a = true | Returned _ => True end) l.
