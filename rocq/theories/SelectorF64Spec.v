(** What is expected of the choice among solutions on doubles. *)
From Coq Require Import List ZArith Reals.
From Verif Require Import F64 SelectorF64.
Import ListNotations.
Open Scope R_scope.

(** a joint limit, in radians or metres *)
Definition limit (v : f64) : Prop := finite v = true /\ Rabs (val v) <= 1000000.

(** numbers within the limits, up to the tolerance and the rounding of it *)
Definition inside (qMin qMax q : list f64) : Prop :=
  length q = length qMin /\
  forall i v l h, nth_error q i = Some v -> nth_error qMin i = Some l -> nth_error qMax i = Some h ->
    finite v = true /\ val l - 11 / 10000000 <= val v <= val h + 11 / 10000000.

(** a posture for walking: no joint but the knee is turned by more than a quarter turn, and the knee
    is not inverted *)
Definition natural (q : list f64) : Prop :=
  exists q0 q1 q2 q3 q4 q5, q = [q0; q1; q2; q3; q4; q5] /\
    Rabs (val q0) <= PI / 2 /\ Rabs (val q1) <= PI / 2 /\ Rabs (val q2) <= PI / 2 /\ 0 <= val q3 /\
    Rabs (val q4) <= PI / 2 /\ Rabs (val q5) <= PI / 2.

(** how far the joints are to go, computed with doubles from the first joint to the last *)
Definition travel (guess q : list f64) : f64 :=
  fold_left (fun s p => fadd s (fabs (fsub (fst p) (snd p)))) (combine guess q) fzero.

(** numbers within the limits, exactly *)
Definition strictly_inside (qMin qMax q : list f64) : Prop :=
  forall i v l h, nth_error q i = Some v -> nth_error qMin i = Some l -> nth_error qMax i = Some h ->
    finite v = true /\ val l <= val v <= val h.

(** a call with k solutions of n joints, whatever the doubles in them, and a guess of n joints *)
Definition proper (n k : nat) (call : list (list f64) * list f64) : Prop :=
  length (fst call) = k /\ (forall q, In q (fst call) -> length q = n) /\ length (snd call) = n.

(** the displacement of the joints, as a real number *)
Fixpoint displacement_of (guess q : list f64) : R :=
  match guess, q with
  | g :: guess', v :: q' => Rabs (val g - val v) + displacement_of guess' q'
  | _, _ => 0
  end.
(** joint angles of at most a hundred (radians or metres) *)
Definition moderate (v : f64) : Prop := finite v = true /\ Rabs (val v) <= 100.
