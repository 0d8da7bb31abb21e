(** The chain that a forward kinematics solver knows.  Nothing here models code. *)
From Coq Require Import Reals List.
From Verif Require Import Kdl FkSt.
Import ListNotations.

(** the chain as it was at the last update, or at the creation of the solver; [now]: as it is *)
Fixpoint seen (now last : chain) (os : list fk_op) : chain :=
  match os with
  | [] => last
  | Change c :: os' => seen c last os'
  | Update :: os' => seen now now os'
  | _ :: os' => seen now last os'
  end.
