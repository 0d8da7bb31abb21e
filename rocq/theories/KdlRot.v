(** Model of the conversions between rotation matrices and angles of Orocos KDL, and of
    KDL::Twist and KDL::Wrench (part of the trusted base, see DESIGN.md: KDL's sources are
    not in /repo; real arithmetic as in Kdl.v). *)
From Coq Require Import Reals List Bool.
From Verif Require Import Kdl Trig.
Open Scope R_scope.

(** KDL::Rotation::GetRotAngle(axis, eps) with the default tolerance: axis and angle *)
Definition GetRotAngle (m : mat) : vec * R :=
  if Rltb (Rabs (m01 m - m10 m)) kdl_eps && Rltb (Rabs (m02 m - m20 m)) kdl_eps && Rltb (Rabs (m12 m - m21 m)) kdl_eps then
    if Rltb (Rabs (m01 m + m10 m)) (10 * kdl_eps) && Rltb (Rabs (m02 m + m20 m)) (10 * kdl_eps)
       && Rltb (Rabs (m12 m + m21 m)) (10 * kdl_eps) && Rltb (Rabs (m00 m + m11 m + m22 m - 3)) (10 * kdl_eps)
    then (V 0 0 1, 0)
    else
      let xx := (m00 m + 1) / 2 in
      let yy := (m11 m + 1) / 2 in
      let zz := (m22 m + 1) / 2 in
      let xy := (m01 m + m10 m) / 4 in
      let xz := (m02 m + m20 m) / 4 in
      let yz := (m12 m + m21 m) / 4 in
      if Rltb yy xx && Rltb zz xx then (V (sqrt xx) (xy / sqrt xx) (xz / sqrt xx), PI)
      else if Rltb zz yy then (V (xy / sqrt yy) (sqrt yy) (yz / sqrt yy), PI)
      else (V (xz / sqrt zz) (yz / sqrt zz) (sqrt zz), PI)
  else
    let f := (m00 m + m11 m + m22 m - 1) / 2 in
    let axis := V (m21 m - m12 m) (m02 m - m20 m) (m10 m - m01 m) in
    (normalize axis, atan2 (norm axis / 2) f).

(** KDL::Rotation::GetRot *)
Definition GetRot (m : mat) : vec := vscale (snd (GetRotAngle m)) (fst (GetRotAngle m)).

(** KDL::Rotation::RPY(roll, pitch, yaw): fixed axes X, Y, Z in this order *)
Definition RPY (roll pitch yaw : R) : mat := mm (RotZ yaw) (mm (RotY pitch) (RotX roll)).
(** KDL::Rotation::EulerZYZ *)
Definition EulerZYZ (alpha beta gamma : R) : mat := mm (RotZ alpha) (mm (RotY beta) (RotZ gamma)).

(** the tolerance 1E-12 of GetRPY and GetEulerZYZ *)
Definition tiny : R := / 1000000000000.

(** KDL::Rotation::GetRPY *)
Definition GetRPY (m : mat) : R * R * R :=
  let pitch := atan2 (- m20 m) (sqrt (m00 m * m00 m + m10 m * m10 m)) in
  if Rltb (PI / 2 - tiny) (Rabs pitch)
  then (0, pitch, atan2 (- m01 m) (m11 m))
  else (atan2 (m21 m) (m22 m), pitch, atan2 (m10 m) (m00 m)).

(** KDL::Rotation::GetEulerZYZ *)
Definition GetEulerZYZ (m : mat) : R * R * R :=
  if Rltb (1 - tiny) (Rabs (m22 m)) then
    if Rltb 0 (m22 m) then (atan2 (m10 m) (m00 m), 0, 0) else (atan2 (- m10 m) (- m00 m), PI, 0)
  else (atan2 (m12 m) (m02 m), atan2 (sqrt (m20 m * m20 m + m21 m * m21 m)) (m22 m), atan2 (m21 m) (- m20 m)).

(** KDL::Twist, KDL::Wrench *)
Record twist := Tw { t_vel : vec; t_rot : vec }.
Record wrench := Wr { w_force : vec; w_torque : vec }.
Definition twist_zero := Tw vzero vzero.
Definition wrench_zero := Wr vzero vzero.

(** ** Specification vocabulary *)
(** some pair of opposite entries differs by at least 2e-6: away from the identity and from
    the half turns, where the axis cannot be read from the differences *)
Definition off_log (m : mat) : Prop :=
  2 * kdl_eps <= Rabs (m01 m - m10 m) \/ 2 * kdl_eps <= Rabs (m02 m - m20 m) \/ 2 * kdl_eps <= Rabs (m12 m - m21 m).
(** rotation by [norm r] about the direction of [r] *)
Definition rot_of (r : vec) : mat := Rot r (norm r).
