(** What is expected of the ASIBOT solver's inverse kinematics on doubles. *)
From Coq Require Import List ZArith Reals.
From Verif Require Import F64 AsibotF64.
Import ListNotations.
Open Scope R_scope.

(** a number of degrees that a robot or its user can have *)
Definition degrees (v : f64) : Prop := finite v = true /\ Rabs (val v) <= 1000000.

(** joint angles that are numbers within the limits, up to the tolerance of the solver (a
    thousandth of a degree) and the rounding of it *)
Definition within_limits (lo hi q : list f64) : Prop :=
  length q = 5%nat /\
  forall i v l h, nth_error q i = Some v -> nth_error lo i = Some l -> nth_error hi i = Some h ->
    finite v = true /\ val l - 11 / 10000 <= val v <= val h + 11 / 10000.

(** a C library whose sine and cosine are right to 1e-12 between -10 and 10 rad, and whose atan2
    answers a number between -4 and 4 *)
Definition accurate (m : libm) : Prop :=
  (forall t, finite t = true -> Rabs (val t) <= 10 ->
     finite (lsin m t) = true /\ Rabs (val (lsin m t) - sin (val t)) <= / 1000000000000 /\
     finite (lcos m t) = true /\ Rabs (val (lcos m t) - cos (val t)) <= / 1000000000000) /\
  (forall a b, finite a = true -> finite b = true -> finite (latan2 m a b) = true /\ Rabs (val (latan2 m a b)) <= 4).
(** and whose sine and cosine of zero are 0 and 1, as the C standard demands *)
Definition exact_at_zero (m : libm) : Prop := lsin m fzero = fzero /\ lcos m fzero = ofZ 1.

(** links as a robot has them, in metres *)
Definition lengths (s : links) : Prop :=
  finite (A0 s) = true /\ finite (A1 s) = true /\ finite (A2 s) = true /\ finite (A3 s) = true /\
  0 <= val (A0 s) <= 1 /\ / 10 <= val (A1 s) <= 1 /\ / 10 <= val (A2 s) <= 1 /\ 0 <= val (A3 s) <= 1.

(** the distance from the shoulder to the wrist that a target asks for: the tool is A3 long and
    points oy away from the vertical *)
Definition wrist_distance (s : links) (x y z oy : R) : R :=
  sqrt ((sqrt (x * x + y * y) - val (A3 s) * sin oy) * (sqrt (x * x + y * y) - val (A3 s) * sin oy) +
        (z - val (A0 s) - val (A3 s) * cos oy) * (z - val (A0 s) - val (A3 s) * cos oy)).

(** the arm reaches it with a margin: the two links in between can be stretched or folded to it *)
Definition reachable (s : links) (margin d : R) : Prop :=
  Rabs (val (A1 s) - val (A2 s)) + margin <= d <= val (A1 s) + val (A2 s) - margin.

(** all the angles of the closed form are numbers *)
Definition all_numbers (a : angles) : Prop :=
  finite (oz a) = true /\ finite (t1u a) = true /\ finite (t1d a) = true /\ finite (t2 a) = true /\ finite (t3u a) = true /\ finite (t3d a) = true.
