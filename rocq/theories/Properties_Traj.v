(** C50, C51: the trajectory generators.  Statements only. *)
From Coq Require Import Reals.
From Verif Require Import TrajGen TrajGenFacts.
Open Scope R_scope.

(** C50: both generators join the two positions in the given time; the third-order one starts
    and ends at rest, and stays at rest at the goal afterwards. *)
Theorem C50_positions : forall o xi xf T t, 0 < T -> configure o xi xf T = Some t ->
  get t 0 = xi /\ get t T = xf /\ getT t = T /\
  (o = Third -> getdot t 0 = 0 /\ getdot t T = 0 /\ forall u, T <= u -> get t u = xf /\ getdot t u = 0).
Proof. exact rest_boundary. Qed.
Print Assumptions C50_positions.
Example C50_positions_example : configure Third 1 0 1 = Some (OrderThree 2 (-3) 0 1 1) /\ configure First 1 0 1 = Some (OrderOne 1 (-1) 1).
Proof. exact back_one. Qed.

(** C50: the same with given velocities at both ends. *)
Theorem C50_velocities : forall xi xf vi vf T, 0 < T ->
  exists t, configure_velocities Third xi xf vi vf T = Some (true, Some t) /\
  get t 0 = xi /\ get t T = xf /\ getdot t 0 = vi /\ getdot t T = vf /\ getT t = T /\
  forall u, T <= u -> get t u = xf /\ getdot t u = vf.
Proof. exact velocity_boundary. Qed.
Print Assumptions C50_velocities.

(** C50: until the end, the velocity and the acceleration are the derivatives. *)
Theorem C50_derivatives : forall t x, x < getT t ->
  derivable_pt_lim (get t) x (getdot t x) /\ derivable_pt_lim (getdot t) x (getdotdot t x).
Proof. exact derivatives. Qed.
Print Assumptions C50_derivatives.

(** C50: between the ends the position is between the given ones. *)
Theorem C50_between : forall o xi xf T t u, 0 < T -> configure o xi xf T = Some t -> 0 <= u <= T ->
  Rmin xi xf <= get t u <= Rmax xi xf.
Proof. exact rest_between. Qed.
Print Assumptions C50_between.

(** C50 is false outside of the time interval: the first-order trajectory goes on, both go on
    before the start, and the third-order one reports an acceleration at rest. *)
Theorem C50_outside_refuted : (exists xi xf T t u, 0 < T /\ configure First xi xf T = Some t /\ T < u /\ get t u <> xf) /\
  (forall o, exists xi xf T t u, 0 < T /\ configure o xi xf T = Some t /\ u < 0 /\ get t u <> xi) /\
  (exists xi xf T t u, 0 < T /\ configure Third xi xf T = Some t /\ T < u /\ getdotdot t u <> 0).
Proof. exact outside_moves. Qed.
Print Assumptions C50_outside_refuted.

(** C51: for a motion onwards from rest to rest the check of the velocity is exact.  Missing:
    motions backwards and other velocities at the ends, for which it is false (below). *)
Theorem C51_velocity_partial : forall o xi xf T t v, 0 < T -> xi <= xf -> configure o xi xf T = Some t ->
  (maxVelBelow t v = true <-> forall u, 0 <= u <= T -> Rabs (getdot t u) < v).
Proof. exact velocity_sound. Qed.
Print Assumptions C51_velocity_partial.
Example C51_velocity_example : configure Third 0 1 1 = Some (OrderThree (-2) 3 0 0 1) /\ maxVelBelow (OrderThree (-2) 3 0 0 1) 2 = true.
Proof. exact onwards_one. Qed.

(** C51: the check of the acceleration is exact for the first order. *)
Theorem C51_acceleration_partial : forall xi xf T t a, 0 < T -> configure First xi xf T = Some t ->
  (maxAccBelow t a = true <-> forall u, 0 <= u <= T -> Rabs (getdotdot t u) < a).
Proof. exact linear_acceleration. Qed.
Print Assumptions C51_acceleration_partial.

(** C51: no trajectory within the limits is refused. *)
Theorem C51_never_refused : forall t v, 0 <= getT t ->
  ((forall u, 0 <= u <= getT t -> Rabs (getdot t u) < v) -> maxVelBelow t v = true) /\
  ((forall u, 0 <= u <= getT t -> Rabs (getdotdot t u) < v) -> maxAccBelow t v = true).
Proof. exact (fun t v H => conj (never_refused t v H) (never_refused_acc t v H)). Qed.
Print Assumptions C51_never_refused.

(** C51 is false of motions backwards. *)
Theorem C51_velocity_refuted : forall o, exists xi xf T t v u,
  0 < T /\ configure o xi xf T = Some t /\ maxVelBelow t v = true /\ 0 <= u <= T /\ v < Rabs (getdot t u).
Proof. exact velocity_unsound. Qed.
Print Assumptions C51_velocity_refuted.

(** C51 is false of trajectories with an initial velocity, whatever their direction. *)
Theorem C51_start_refuted : exists xi xf vi vf T t v u, 0 < T /\ xi < xf /\ 0 <= vi /\ 0 <= vf /\
  configure_velocities Third xi xf vi vf T = Some (true, Some t) /\ maxVelBelow t v = true /\ 0 <= u <= T /\ v < getdot t u.
Proof. exact velocity_start_unsound. Qed.
Print Assumptions C51_start_refuted.

(** C51 is false of the acceleration of the third order. *)
Theorem C51_acceleration_refuted : exists xi xf T t a u,
  0 < T /\ configure Third xi xf T = Some t /\ maxAccBelow t a = true /\ 0 <= u <= T /\ a < Rabs (getdotdot t u).
Proof. exact acceleration_unsound. Qed.
Print Assumptions C51_acceleration_refuted.

(** C51, how it fails: for a motion from rest to rest every positive limit is accepted. *)
Theorem C51_acceleration_blind : forall o xi xf T t a, 0 < T -> configure o xi xf T = Some t -> (maxAccBelow t a = true <-> 0 < a).
Proof. exact acceleration_blind. Qed.
Print Assumptions C51_acceleration_blind.
