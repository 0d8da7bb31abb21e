(** What the properties of the example say.  Nothing here models code. *)
From Coq Require Import Reals List Bool.
From Verif Require Import Kdl Screw Builder IkPoseSpec Follow.
Import ListNotations.
Open Scope R_scope.

(** length of the displacement (0.15, 0.1, 0.1) *)
Definition way_length : R := sqrt (425 / 10000).
(** the pose at a fraction of the line *)
Definition on_line (start : frame) (l : R) : frame := F (fM start) (vadd (fp start) (vscale l (V (15 / 100) (1 / 10) (1 / 10)))).
(** the shortest time for a length with bounded velocity and acceleration, at rest at both ends *)
Definition quickest (maxVel maxAcc len : R) : R :=
  if Rleb (maxAcc * len) (maxVel * maxVel) then 2 * sqrt (len / maxAcc) else maxVel / maxAcc + len / maxVel.

(** the problem that was built is that of an arm with shoulder r, wrist w and points x, y on and off its last axis *)
Definition wrist_follower (f : follower) (r w x y : vec) : Prop :=
  wrist_arm (exps (fo_poe f)) r w x y /\ fo_steps f = wrist_steps (exps (fo_poe f)) r w x y.
(** every reading has one value for each of the six axes *)
Definition six_values (ins : list (R * option (list R))) : Prop := forall t q, In (t, Some q) ins -> length q = 6%nat.
(** the values are inside the limits that the robot tells, both in degrees *)
Definition inside_limits (limits : nat -> option (R * R)) (q : list R) : Prop :=
  forall i x lo hi, nth_error q i = Some x -> limits i = Some (lo, hi) -> lo <= x <= hi.
