(** The ASIBOT solver on doubles: C160 and C161. *)
From Coq Require Import List ZArith Reals.
From Verif Require Import F64 AsibotF64 AsibotF64Spec AsibotF64Facts AsibotF64Facts2 AsibotF64Examples.
Import ListNotations.
Open Scope R_scope.

(** C160: whatever the C library, the links and the target (numbers or not), the angles that inverse
    kinematics answers are numbers within the limits of the joints *)
Theorem C160_within : forall m s lo hi x y z oy oz5 guess q, Forall degrees lo -> Forall degrees hi ->
  invKin m s lo hi x y z oy oz5 guess = Found q -> within_limits lo hi q.
Proof. exact found_within. Qed.
Print Assumptions C160_within.

(** C160: and there is no undefined behaviour, whatever the guess *)
Theorem C160_defined : forall m s lo hi x y z oy oz5 guess, length lo = 5%nat -> length hi = 5%nat ->
  Forall degrees lo -> Forall degrees hi ->
  invKin m s lo hi x y z oy oz5 guess <> Undefined.
Proof. exact invKin_defined. Qed.
Print Assumptions C160_defined.

(** C161: a target within reach by a hundredth of a millimetre is not refused for its distance, and
    all the angles of the closed form are numbers *)
Theorem C161_margin : forall m s x y z oy, accurate m -> lengths s ->
  finite x = true -> finite y = true -> finite z = true -> finite oy = true -> -10 <= val oy <= 10 ->
  reachable s (/ 100000) (wrist_distance s (val x) (val y) (val z) (val oy)) ->
  exists a, closed_form m s x y z oy = Some a /\ all_numbers a.
Proof. exact margin_solved. Qed.
Print Assumptions C161_margin.

(** C161: with no margin, a target that the arm can reach may be refused *)
Theorem C161_edge_refuted : exists s x y z, lengths s /\ finite x = true /\ finite y = true /\ finite z = true /\
  reachable s 0 (wrist_distance s (val x) (val y) (val z) 0) /\
  forall m lo hi oz5 guess, exact_at_zero m -> invKin m s lo hi x y z fzero oz5 guess = Refused.
Proof. exact edge_refused. Qed.
Print Assumptions C161_edge_refuted.
