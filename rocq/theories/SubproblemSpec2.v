(** Specification vocabulary for the angles returned by the subproblems.  Nothing here models code. *)
From Coq Require Import Reals.
From Verif Require Import Kdl.
Open Scope R_scope.

(** angles that the library never confuses with half a turn *)
Definition settled (t : R) : Prop := t = PI \/ Rabs t <= PI - kdl_eps.
