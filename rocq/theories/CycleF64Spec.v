(** What is expected of the parameters and the control cycles on doubles. *)
From Coq Require Import List ZArith Reals.
From Verif Require Import F64 CycleF64.
Import ListNotations.
Open Scope R_scope.

(** parameters that can be used: a gain that is a number and not negative, a positive duration *)
Definition in_order (p : params) : Prop := fleb fzero (p_gain p) = true /\ fltb fzero (p_duration p) = true.

(** a number without its fraction *)
Definition whole_part (x : R) (z : Z) : Prop := Rabs (IZR z) <= Rabs x /\ Rabs (x - IZR z) < 1.

(** a parameter has been set to a value: the same double or, for the integer ones, its whole part *)
Definition holds (k : pkey) (v : f64) (p : params) : Prop :=
  match k with
  | Gain => p_gain p = v
  | TrajDuration => p_duration p = v
  | CmcPeriod => whole_part (val v) (p_cmc p)
  | WaitPeriod => whole_part (val v) (p_wait p)
  | Frame => whole_part (val v) (p_frame p)
  | StreamingCmd => whole_part (val v) (p_stream p)
  | Other => False
  end.

(** the length of a path, in metres or radians, as movements have them and far beyond *)
Definition a_length (l : f64) : Prop := finite l = true /\ / 100000000000000000000 <= val l <= 100000000000000000000.

(** a number of at most a million; parameters whose gain is one and whose period is of a millisecond or more *)
Definition a_number (x : f64) : Prop := finite x = true /\ Rabs (val x) <= 1000000.
Definition usable (p : params) : Prop := a_number (p_gain p) /\ (1 <= p_cmc p <= 2147483647)%Z.
