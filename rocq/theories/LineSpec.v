(** What a movement along a line is, independently of how it is computed. *)
From Coq Require Import Reals List Bool.
From Verif Require Import Kdl KdlRot KinRepSpec AsibotSpec.
Open Scope R_scope.

(** [p l], for [l] from 0 to 1, goes from [a] to [b]: the origin along the segment, the axes turning about a single axis by at
    most half a turn, both in the same proportion *)
Definition straight (a b : frame) (p : R -> frame) : Prop :=
  exists axis angle, unit axis /\ 0 <= angle <= PI /\ fM b = mm (fM a) (Rot2 axis angle) /\
    forall l, p l = F (mm (fM a) (Rot2 axis (l * angle))) (vadd (fp a) (vscale l (vsub (fp b) (fp a)))).

(** [r] goes from 0 to 1 between the times 0 and [T], never backwards *)
Definition progress (r : R -> R) (T : R) : Prop :=
  (forall t, t <= 0 -> r t = 0) /\ (forall t, T <= t -> r t = 1) /\ (forall t u, t <= u -> r t <= r u).

(** the two poses are apart by nothing or by something that KDL's tolerances let it see *)
Definition measurable (a b : frame) : Prop :=
  (fp a = fp b \/ kdl_eps <= norm (vsub (fp b) (fp a))) /\ regular_log (mm (mT (fM a)) (fM b)).

(** the least time for a path of a given length (metres or radians) with velocity up to 10 and acceleration up to 10, from rest to rest *)
Definition least_time (len : R) : R := if Rleb len 10 then 2 * sqrt (len / 10) else 1 + len / 10.
(** the length of the path between two poses: the longer of the displacement and the turn *)
Definition path_length (a b : frame) : R := Rmax (norm (vsub (fp b) (fp a))) (norm (GetRot (mm (mT (fM a)) (fM b)))).

(** a movement within limits: at every time there is a velocity, of at most [v] metres and
    radians per second, and the origin departs from what it foretells by at most [a / 2] times the time squared *)
Definition gentle (q : R -> frame) (v a : R) : Prop :=
  forall t, exists w, velocity_of q t w /\ norm (t_vel w) <= v /\ norm (t_rot w) <= v /\
    forall h, norm (vsub (fp (q (t + h))) (vadd (fp (q t)) (vscale h (t_vel w)))) <= a / 2 * (h * h).

(** how fast a movement that takes [T] seconds is, compared with the fastest one between the same poses *)
Definition pace (a b : frame) (T : R) : R := least_time (path_length a b) / T.

(** the pose at the time [t] of what starts at [a] and goes with the velocity [w], as seen from the base *)
Definition going (a : frame) (w : twist) (t : R) : frame :=
  F (mm (Rot (t_rot w) (t * norm (t_rot w))) (fM a)) (vadd (fp a) (vscale t (t_vel w))).
(** the velocity: metres or radians per second *)
Definition speed (w : twist) : R := Rmax (norm (t_vel w)) (norm (t_rot w)).
(** velocities that KDL's tolerances let it see: turning by less than half a turn per second, no faster than ten units per second *)
Definition visible (w : twist) : Prop :=
  (t_vel w = vzero \/ kdl_eps <= norm (t_vel w)) /\
  (t_rot w = vzero \/ (norm (t_rot w) < PI /\ kdl_eps <= sin (norm (t_rot w)) /\ kdl_eps <= norm (t_rot w))) /\ speed w <= 10.
