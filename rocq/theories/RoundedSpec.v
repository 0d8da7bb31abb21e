(** What is expected of the controller when its numbers are doubles. *)
From Coq Require Import List ZArith Reals.
From Verif Require Import F64 Rounded.
Import ListNotations.
Open Scope R_scope.

(** limits as a robot has them: numbers, the angles of at most a million degrees, and no joint is
    asked to keep moving *)
Definition sane (j : joint) : Prop :=
  finite (qMin j) = true /\ finite (qMax j) = true /\ finite (qdotMin j) = true /\ finite (qdotMax j) = true /\
  Rabs (val (qMin j)) <= 1000000 /\ Rabs (val (qMax j)) <= 1000000 /\
  val (qdotMin j) <= 0 <= val (qdotMax j).

(** an angle within the limits of its joint, a velocity within the limits of its joint *)
Definition in_range (j : joint) (v : f64) : Prop :=
  finite v = true /\ val (qMin j) <= val v <= val (qMax j).
Definition in_speed (j : joint) (v : f64) : Prop :=
  finite v = true /\ val v <= val (qdotMax j) /\
  (val (qdotMin j) = 0 -> - val (qdotMax j) <= val v) /\
  (val (qdotMin j) <> 0 -> val (qdotMin j) <= val v).

(** every number of [q] that is one (is not NaN) satisfies [P] at its joint *)
Definition numbers (P : joint -> f64 -> Prop) (js : list joint) (q : list f64) : Prop :=
  forall i j v, nth_error js i = Some j -> nth_error q i = Some v -> isnan v = true \/ P j v.

(** samples of a trajectory: times and angles, the angles of each being the solver's answer for the
    pose at its time when started at those of the sample before it *)
Definition solved (invKin : list f64 -> list f64 -> option (list f64)) (pose : f64 -> list f64) (q0 : list f64)
    (l : list (f64 * list f64)) : Prop :=
  forall k t q, nth_error l k = Some (t, q) ->
    exists before, nth_error (q0 :: map snd l) k = Some before /\ invKin (pose t) before = Some q.
Definition within (js : list joint) (q0 : list f64) (l : list (f64 * list f64)) : Prop :=
  forall k t q before, nth_error l k = Some (t, q) -> nth_error (q0 :: map snd l) k = Some before ->
    numbers in_range js q /\ numbers in_speed js (differences q before).
(** they begin with the trajectory, follow each other at most a step apart (give or take the
    rounding of the clock), and stop less than a step before its end *)
Definition spread (step d : R) (l : list (f64 * list f64)) : Prop :=
  (exists t q, nth_error l 0 = Some (t, q) /\ val t = 0) /\
  (forall k t q t' q', nth_error l k = Some (t, q) -> nth_error l (S k) = Some (t', q') ->
     val t <= val t' <= val t + step + (d + step) / 2 ^ 52) /\
  (forall t q, nth_error l (Nat.pred (length l)) = Some (t, q) -> val t <= d < val t + step).

(** speeds: reference speeds and angles as a robot has them *)
Definition ref_speed (r : f64) : Prop := finite r = true /\ (val r <= 0 \/ / 1000000 <= val r <= 1000000).
Definition angle (q : f64) : Prop := finite q = true /\ Rabs (val q) <= 1000000.
Definition apart (q qd : f64) : Prop := val q = val qd \/ / 1000000000 <= Rabs (val qd - val q).
(** the reference speeds, angles and targets of all joints *)
Definition joint_ok (refs q qd : list f64) : Prop :=
  forall i r x y, nth_error refs i = Some r -> nth_error q i = Some x -> nth_error qd i = Some y -> ref_speed r /\ angle x /\ angle y /\ apart x y.
