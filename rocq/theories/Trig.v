(** Model of the C math library functions used by the code (exact, over R). *)
From Coq Require Import Reals.
From Verif Require Import Kdl.
Open Scope R_scope.

(** std::atan2 on reals. Simplification: signed zeros do not exist in R, so
    atan2(-0.0, negative) = -PI is not represented. *)
Definition atan2 (y x : R) : R :=
  if Rltb 0 x then atan (y / x)
  else if Rltb x 0 then (if Rleb 0 y then atan (y / x) + PI else atan (y / x) - PI)
  else if Rltb 0 y then PI / 2
  else if Rltb y 0 then - (PI / 2)
  else 0.

(** division of doubles; [None] when the result would not be finite *)
Definition fdiv (x y : R) : option R := if Reqb y 0 then None else Some (x / y).

Definition obind {A B : Type} (x : option A) (f : A -> option B) : option B :=
  match x with None => None | Some a => f a end.
Notation "'do' x <- a ; b" := (obind a (fun x => b)) (at level 200, x name, a at level 100, b at level 200).
