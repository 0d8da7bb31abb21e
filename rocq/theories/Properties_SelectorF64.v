(** The choice among the solutions of the screw theory solver on doubles: C162 and C163. *)
From Coq Require Import List ZArith Reals.
From Verif Require Import F64 SelectorF64 SelectorF64Spec SelectorF64Facts SelectorF64Examples.
Import ListNotations.
Open Scope R_scope.

(** C162: call after call, whatever the solutions and the guesses (numbers or not), what the solver
    answers are numbers within the limits, and a walking posture if so chosen; no behaviour is
    undefined *)
Theorem C162_served : forall gait lo hi k calls, Forall limit lo -> Forall limit hi -> length lo = length hi ->
  (gait = true -> length lo = 6%nat) -> Forall (proper (length lo) k) calls ->
  ~ In Undefined (serve gait lo hi None calls) /\
  forall q, In (Found q) (serve gait lo hi None calls) -> inside lo hi q /\ (gait = true -> natural q).
Proof. exact served. Qed.
Print Assumptions C162_served.

(** C163: the first call answers if there is a solution within the limits, and no other such solution
    is nearer to the guess, up to 1e-10 *)
Theorem C163_nearest : forall lo hi sols guess, Forall moderate lo -> Forall moderate hi -> length lo = length hi -> (length lo <= 20)%nat ->
  (forall q, In q sols -> length q = length lo) -> length guess = length lo -> Forall moderate guess ->
  (exists q', In q' sols /\ strictly_inside lo hi q') ->
  exists q last, cart_to_jnt false lo hi None sols guess = (Found q, last) /\ In q sols /\ inside lo hi q /\
    forall q', In q' sols -> strictly_inside lo hi q' -> displacement_of guess q <= displacement_of guess q' + / 10000000000.
Proof. exact first_least. Qed.
Print Assumptions C163_nearest.

(** C163: whatever the guess, none of them has a smaller sum of displacements as computed with doubles *)
Theorem C163_computed : forall lo hi sols guess, Forall limit lo -> Forall limit hi -> length lo = length hi ->
  (forall q, In q sols -> length q = length lo) -> length guess = length lo ->
  (exists q', In q' sols /\ strictly_inside lo hi q') ->
  exists q last, cart_to_jnt false lo hi None sols guess = (Found q, last) /\ In q sols /\ inside lo hi q /\
    forall q', In q' sols -> strictly_inside lo hi q' -> fltb (travel guess q') (travel guess q) = false.
Proof. exact first_call. Qed.
Print Assumptions C163_computed.

(** C163: another solution may be nearer, by less than the rounding of the sum *)
Theorem C163_nearest_refuted : exists lo hi sols guess q last q', Forall moderate lo /\ Forall moderate hi /\ Forall moderate guess /\
  cart_to_jnt false lo hi None sols guess = (Found q, last) /\ In q' sols /\ strictly_inside lo hi q' /\ displacement_of guess q' < displacement_of guess q.
Proof. exact not_the_nearest. Qed.
Print Assumptions C163_nearest_refuted.
