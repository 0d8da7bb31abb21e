(** Specification vocabulary of the representation codecs. *)
From Coq Require Import String Reals List.
From Verif Require Import Kdl Trig KdlRot KinRep.
Import ListNotations.
Open Scope R_scope.

(** the meaning of an angle written in the given unit *)
Definition radians (u : angular_units) (x : R) : R := match u with RADIANS => x | DEGREES => x * PI / 180 end.

(** [means o u p l m]: at the position [p], the numbers [l] denote the rotation [m] in the
    orientation system [o] with angles in the unit [u] (KinematicRepresentation.hpp 36-46) *)
Definition means (o : orientation_system) (u : angular_units) (p : vec) (l : list R) (m : mat) : Prop :=
  match o, l with
  | AXIS_ANGLE, [x; y; z; t] => m = Rot (V x y z) (radians u t)
  | AXIS_ANGLE_SCALED, [x; y; z] => m = rot_of (V (radians u x) (radians u y) (radians u z))
  | O_RPY, [r; p; y] => m = mm (RotZ (radians u y)) (mm (RotY (radians u p)) (RotX (radians u r)))
  | EULER_YZ, [b; g] => m = mm (RotZ (atan2 (vy p) (vx p))) (mm (RotY (radians u b)) (RotZ (radians u g)))
  | EULER_ZYZ, [a; b; g] => m = mm (RotZ (radians u a)) (mm (RotY (radians u b)) (RotZ (radians u g)))
  | POLAR_AZIMUTH, [t; az] => m = Rot2 (V (- sin (radians u az)) (cos (radians u az)) 0) (radians u t)
  | ORIENT_NONE, [] => m = mid
  | _, _ => False
  end.
(** the numbers [l] denote the position [p] *)
Definition means_pos (c : coordinate_system) (l : list R) (p : vec) : Prop :=
  match c, l with
  | CARTESIAN, [x; y; z] => p = V x y z
  | COORD_NONE, [] => p = vzero
  | _, _ => False
  end.

(** the rotation vector can be read from the matrix: away from the identity and the half
    turns, or exactly at them *)
Definition regular_log (m : mat) : Prop := off_log m \/ (m01 m = m10 m /\ m02 m = m20 m /\ m12 m = m21 m).
(** the pose can be written exactly in this system: away from its singularities, or exactly
    at them, and without losing the part that the system does not represent *)
Definition writable (o : orientation_system) (p r : vec) : Prop :=
  let m := rot_of r in
  match o with
  | AXIS_ANGLE | AXIS_ANGLE_SCALED => True
  | O_RPY => tiny <= sqrt (m00 m * m00 m + m10 m * m10 m) \/ Rabs (m20 m) = 1
  | EULER_ZYZ => Rabs (m22 m) <= 1 - tiny \/ Rabs (m22 m) = 1
  | EULER_YZ => exists b g, 0 < b < PI /\ Rabs (cos b) <= 1 - tiny /\ m = mm (RotZ (atan2 (vy p) (vx p))) (mm (RotY b) (RotZ g))
  | POLAR_AZIMUTH => vz r = 0 /\ (r = vzero \/ kdl_eps <= norm r)
  | ORIENT_NONE => m = mid
  end.
Definition writable_pos (c : coordinate_system) (p : vec) : Prop :=
  match c with CARTESIAN => True | COORD_NONE => p = vzero | _ => False end.

(** supported combinations *)
Definition pos_supported (c : coordinate_system) : bool := match c with CARTESIAN | COORD_NONE => true | _ => false end.
Definition pose_supported (c : coordinate_system) (o : orientation_system) : bool :=
  match c, o with
  | CARTESIAN, _ => true
  | COORD_NONE, EULER_YZ => false
  | COORD_NONE, _ => true
  | _, _ => false
  end.
Definition velocity_supported (c : coordinate_system) (o : orientation_system) : bool :=
  match o with
  | AXIS_ANGLE | AXIS_ANGLE_SCALED | O_RPY | ORIENT_NONE => pos_supported c
  | _ => false
  end.

(** [w] is the angular velocity at [t = 0] of the moving orientation [f] *)
Definition angular_velocity (f : R -> mat) (w : vec) : Prop :=
  forall v, derivable_pt_lim (fun t => vx (mv (f t) v)) 0 (vx (cross w (mv (f 0) v))) /\
            derivable_pt_lim (fun t => vy (mv (f t) v)) 0 (vy (cross w (mv (f 0) v))) /\
            derivable_pt_lim (fun t => vz (mv (f t) v)) 0 (vz (cross w (mv (f 0) v))).
(** roll, pitch and yaw (fixed axes x, y, z) moving at constant rates *)
Definition moving_rpy (r p y r' p' y' : R) (t : R) : mat :=
  mm (RotZ (y + t * y')) (mm (RotY (p + t * p')) (RotX (r + t * r'))).

(** the documented names of the enumerators (KinematicRepresentation.hpp 168-200) *)
Definition coordinate_name (c : coordinate_system) : string :=
  match c with CARTESIAN => "cartesian" | CYLINDRICAL => "cylindrical" | SPHERICAL => "spherical" | COORD_NONE => "none" end.
Definition orientation_name (o : orientation_system) : string :=
  match o with
  | AXIS_ANGLE => "axisAngle" | AXIS_ANGLE_SCALED => "axisAngleScaled" | O_RPY => "RPY" | EULER_YZ => "eulerYZ"
  | EULER_ZYZ => "eulerZYZ" | POLAR_AZIMUTH => "polarAzimuth" | ORIENT_NONE => "none"
  end.
Definition units_name (u : angular_units) : string := match u with DEGREES => "degrees" | RADIANS => "radians" end.

(** a vector as three numbers *)
Definition vlist (v : vec) : list R := [vx v; vy v; vz v].

(** a rotation vector that has a polar-azimuth form: no component along z (within the tolerance of the code) *)
Definition polar_ok (o : orientation_system) (l : list R) : Prop := match o with POLAR_AZIMUTH => Rabs (nth 5 l 0) <= kdl_eps | _ => True end.

(** the pose argument has the size that the function reads without checking *)
Definition enc_pose_size (c : coordinate_system) (o : orientation_system) : nat := match o with O_RPY => expected_size c O_RPY | _ => 0 end.
Definition dec_pose_size (o : orientation_system) : nat := match o with O_RPY => 6 | _ => 0 end.

(** only the vector [r] was written *)
Definition same_elsewhere (m m' : mem) (r : nat) : Prop := forall r', r' <> r -> m' r' = m r'.

(** two calls, one with output [x] and the other with output [y]: the same answer and, if it is
    positive, the same contents; undefined behaviour in neither *)
Definition same_outcome (x y : nat) (a b : option (bool * mem)) : Prop :=
  match a, b with
  | Some (r, m1), Some (r', m2) => r = r' /\ (r = true -> m1 x = m2 y)
  | _, _ => False
  end.

(** velocities that the system can carry without loss *)
Definition vel_writable (c : coordinate_system) (o : orientation_system) (v w : vec) : Prop :=
  match c with CARTESIAN => True | COORD_NONE => v = vzero | _ => False end /\
  match o with
  | AXIS_ANGLE_SCALED => True
  | AXIS_ANGLE => w = vzero \/ (norm w < PI /\ kdl_eps <= sin (norm w))
  | ORIENT_NONE => w = vzero
  | _ => False
  end.
