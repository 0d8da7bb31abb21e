(** Model of KinematicRepresentation.cpp (KinematicRepresentationLib) and of
    KdlVectorConverter.cpp (KdlVectorConverterLib).

    The codecs take their vectors by reference and are documented to work in place, so
    they are modelled as programs over a memory of vectors: the input and the output are
    names in that memory and may be the same name.  The outcome [None] is undefined
    behaviour: an access out of the bounds of a vector.
    Simplifications: real numbers for doubles; enumerators outside of the declared values
    (the default branches) are not represented; log messages are dropped. *)
From Coq Require Import String Reals List Bool Arith.
From Verif Require Import Kdl Trig KdlRot.
Import ListNotations.
Open Scope R_scope.
Local Notation S := Datatypes.S.

(** ** Vectors in memory *)
Definition mem := nat -> list R.
Definition prog (A : Type) := mem -> option (A * mem).
Definition ret {A} (a : A) : prog A := fun m => Some (a, m).
Definition bind {A B} (p : prog A) (f : A -> prog B) : prog B :=
  fun m => match p m with Some (a, m') => f a m' | None => None end.
Notation "'LET' x := a 'IN' b" := (bind a (fun x => b)) (at level 200, x name, a at level 100, b at level 200).
Notation "a ;; b" := (bind a (fun _ => b)) (at level 100, b at level 200, right associativity).

Definition set_vec (m : mem) (r : nat) (l : list R) : mem := fun r' => if Nat.eqb r' r then l else m r'.
(** std::vector::size *)
Definition vsize (r : nat) : prog nat := fun m => Some (length (m r), m).
(** v[i] as a value *)
Definition rd (r i : nat) : prog R :=
  fun m => match nth_error (m r) i with Some x => Some (x, m) | None => None end.
Fixpoint write (l : list R) (i : nat) (x : R) : option (list R) :=
  match l, i with
  | [], _ => None
  | _ :: l', O => Some (x :: l')
  | y :: l', S i' => match write l' i' x with Some r => Some (y :: r) | None => None end
  end.
(** v[i] = x *)
Definition wr (r i : nat) (x : R) : prog Datatypes.unit :=
  fun m => match write (m r) i x with Some l => Some (tt, set_vec m r l) | None => None end.
(** std::vector::resize: truncates or appends zeroes *)
Definition resized (l : list R) (n : nat) : list R := firstn n l ++ repeat 0 (n - length l).
Definition rsz (r n : nat) : prog Datatypes.unit := fun m => Some (tt, set_vec m r (resized (m r) n)).

(** ** Enumerators (KinematicRepresentation.hpp 27-53) *)
Inductive coordinate_system := CARTESIAN | CYLINDRICAL | SPHERICAL | COORD_NONE.
Inductive orientation_system := AXIS_ANGLE | AXIS_ANGLE_SCALED | O_RPY | EULER_YZ | EULER_ZYZ | POLAR_AZIMUTH | ORIENT_NONE.
Inductive angular_units := DEGREES | RADIANS.

(** KinematicRepresentation.cpp 516-526: degToRad, radToDeg (KDL::deg2rad, KDL::rad2deg) *)
Definition degToRad (x : R) : R := x * (PI / 180).
Definition radToDeg (x : R) : R := x * (180 / PI).
(** KinematicRepresentation.cpp 19-27: degToRadHelper, radToDegHelper *)
Definition degToRadHelper (u : angular_units) (x : R) : R := match u with RADIANS => x | DEGREES => degToRad x end.
Definition radToDegHelper (u : angular_units) (x : R) : R := match u with RADIANS => x | DEGREES => radToDeg x end.

(** KinematicRepresentation.cpp 29-68: checkVectorSize (the expected size) *)
Definition expected_size (c : coordinate_system) (o : orientation_system) : nat :=
  (match c with COORD_NONE => 0 | _ => 3 end +
   match o with
   | AXIS_ANGLE => 4
   | AXIS_ANGLE_SCALED | O_RPY | EULER_ZYZ => 3
   | EULER_YZ | POLAR_AZIMUTH => 2
   | ORIENT_NONE => 0
   end)%nat.
Definition checkVectorSize (v : nat) (c : coordinate_system) (o : orientation_system) : prog bool :=
  LET n := vsize v IN ret (Nat.leb (expected_size c o) n).

(** lines 86, 197, 317, 413: int off *)
Definition offset (c : coordinate_system) : nat := match c with COORD_NONE => 0 | _ => 3 end.

Definition put3 (r i : nat) (v : vec) : prog Datatypes.unit :=
  wr r i (vx v) ;; wr r (i + 1) (vy v) ;; wr r (i + 2) (vz v).

(** the common tail of encodePose (157-180) and encodeVelocity (373-396) *)
Definition encode_coord (xin xout : nat) (c : coordinate_system) : prog bool :=
  rsz xout 6 ;;
  match c with
  | CARTESIAN =>
      LET a := rd xin 0 IN wr xout 0 a ;;
      LET b := rd xin 1 IN wr xout 1 b ;;
      LET d := rd xin 2 IN wr xout 2 d ;; ret true
  | COORD_NONE => wr xout 2 0 ;; wr xout 1 0 ;; wr xout 0 0 ;; ret true
  | CYLINDRICAL | SPHERICAL => ret false
  end.

(** KinematicRepresentation.cpp 76-183: encodePose *)
Definition encodePose (xin xout : nat) (c : coordinate_system) (o : orientation_system) (u : angular_units) : prog bool :=
  LET ok := checkVectorSize xin c o IN
  if negb ok then ret false else
  LET n := vsize xout IN
  rsz xout (Nat.max 6 n) ;;
  let off := offset c in
  match o with
  | AXIS_ANGLE =>
      LET a0 := rd xin (0 + off) IN LET a1 := rd xin (1 + off) IN LET a2 := rd xin (2 + off) IN
      LET a3 := rd xin (3 + off) IN
      put3 xout 3 (GetRot (Rot (V a0 a1 a2) (degToRadHelper u a3))) ;; encode_coord xin xout c
  | AXIS_ANGLE_SCALED =>
      LET a0 := rd xin (0 + off) IN wr xout 3 (degToRadHelper u a0) ;;
      LET a1 := rd xin (1 + off) IN wr xout 4 (degToRadHelper u a1) ;;
      LET a2 := rd xin (2 + off) IN wr xout 5 (degToRadHelper u a2) ;; encode_coord xin xout c
  | O_RPY =>
      LET a0 := rd xin (0 + off) IN LET a1 := rd xin (1 + off) IN LET a2 := rd xin (2 + off) IN
      put3 xout 3 (GetRot (RPY (degToRadHelper u a0) (degToRadHelper u a1) (degToRadHelper u a2))) ;; encode_coord xin xout c
  | EULER_YZ =>
      match c with
      | COORD_NONE => ret false
      | _ =>
          LET y := rd xin 1 IN LET x := rd xin 0 IN
          LET a3 := rd xin 3 IN LET a4 := rd xin 4 IN
          put3 xout 3 (GetRot (EulerZYZ (atan2 y x) (degToRadHelper u a3) (degToRadHelper u a4))) ;; encode_coord xin xout c
      end
  | EULER_ZYZ =>
      LET a0 := rd xin (0 + off) IN LET a1 := rd xin (1 + off) IN LET a2 := rd xin (2 + off) IN
      put3 xout 3 (GetRot (EulerZYZ (degToRadHelper u a0) (degToRadHelper u a1) (degToRadHelper u a2))) ;; encode_coord xin xout c
  | POLAR_AZIMUTH =>
      LET a1 := rd xin (1 + off) IN LET a0 := rd xin (0 + off) IN
      put3 xout 3 (GetRot (Rot2 (V (- sin (degToRadHelper u a1)) (cos (degToRadHelper u a1)) 0) (degToRadHelper u a0))) ;; encode_coord xin xout c
  | ORIENT_NONE => wr xout 5 0 ;; wr xout 4 0 ;; wr xout 3 0 ;; encode_coord xin xout c
  end.

(** the common tail of decodePose (280-300) and decodeVelocity (469-489) *)
Definition decode_coord (xin xout : nat) (c : coordinate_system) : prog bool :=
  match c with
  | CARTESIAN =>
      LET a := rd xin 0 IN wr xout 0 a ;;
      LET b := rd xin 1 IN wr xout 1 b ;;
      LET d := rd xin 2 IN wr xout 2 d ;; ret true
  | COORD_NONE => ret true
  | CYLINDRICAL | SPHERICAL => ret false
  end.

Definition grow (r n : nat) : prog Datatypes.unit := LET k := vsize r IN rsz r (Nat.max n k).

(** KinematicRepresentation.cpp 187-303: decodePose *)
Definition decodePose (xin xout : nat) (c : coordinate_system) (o : orientation_system) (u : angular_units) : prog bool :=
  LET ok := checkVectorSize xin CARTESIAN AXIS_ANGLE_SCALED IN
  if negb ok then ret false else
  let off := offset c in
  match o with
  | AXIS_ANGLE =>
      grow xout (4 + off) ;;
      LET a0 := rd xin 3 IN LET a1 := rd xin 4 IN LET a2 := rd xin 5 IN
      let axis := V a0 a1 a2 in
      wr xout (3 + off) (radToDegHelper u (norm axis)) ;;
      wr xout (0 + off) (vx (normalize axis)) ;;
      wr xout (1 + off) (vy (normalize axis)) ;;
      wr xout (2 + off) (vz (normalize axis)) ;;
      rsz xout (4 + off) ;; decode_coord xin xout c
  | AXIS_ANGLE_SCALED =>
      grow xout (3 + off) ;;
      LET a0 := rd xin 3 IN wr xout (0 + off) (radToDegHelper u a0) ;;
      LET a1 := rd xin 4 IN wr xout (1 + off) (radToDegHelper u a1) ;;
      LET a2 := rd xin 5 IN wr xout (2 + off) (radToDegHelper u a2) ;;
      rsz xout (3 + off) ;; decode_coord xin xout c
  | O_RPY =>
      grow xout (3 + off) ;;
      LET a0 := rd xin 3 IN LET a1 := rd xin 4 IN LET a2 := rd xin 5 IN
      let '(roll, pitch, yaw) := GetRPY (Rot (V a0 a1 a2) (norm (V a0 a1 a2))) in
      wr xout (0 + off) (radToDegHelper u roll) ;;
      wr xout (1 + off) (radToDegHelper u pitch) ;;
      wr xout (2 + off) (radToDegHelper u yaw) ;;
      rsz xout (3 + off) ;; decode_coord xin xout c
  | EULER_YZ =>
      grow xout (2 + off) ;;
      LET a0 := rd xin 3 IN LET a1 := rd xin 4 IN LET a2 := rd xin 5 IN
      let '(alpha, beta, gamma) := GetEulerZYZ (Rot (V a0 a1 a2) (norm (V a0 a1 a2))) in
      wr xout (0 + off) (radToDegHelper u beta) ;;
      wr xout (1 + off) (radToDegHelper u gamma) ;;
      rsz xout (2 + off) ;; decode_coord xin xout c
  | EULER_ZYZ =>
      grow xout (3 + off) ;;
      LET a0 := rd xin 3 IN LET a1 := rd xin 4 IN LET a2 := rd xin 5 IN
      let '(alpha, beta, gamma) := GetEulerZYZ (Rot (V a0 a1 a2) (norm (V a0 a1 a2))) in
      wr xout (0 + off) (radToDegHelper u alpha) ;;
      wr xout (1 + off) (radToDegHelper u beta) ;;
      wr xout (2 + off) (radToDegHelper u gamma) ;;
      rsz xout (3 + off) ;; decode_coord xin xout c
  | POLAR_AZIMUTH =>
      LET z := rd xin 5 IN
      if Rltb kdl_eps (Rabs z) then ret false else
      grow xout (2 + off) ;;
      LET a0 := rd xin 3 IN LET a1 := rd xin 4 IN LET a2 := rd xin 5 IN
      wr xout (0 + off) (radToDegHelper u (norm (V a0 a1 a2))) ;;
      wr xout (1 + off) (radToDegHelper u (atan2 (- a0) a1)) ;;
      rsz xout (2 + off) ;; decode_coord xin xout c
  | ORIENT_NONE => rsz xout off ;; decode_coord xin xout c
  end.

(** the matrix of 341-349 and 442-446 (columns: z, RotZ y, RotZ RotY x) *)
Definition rpy_rates (pitch yaw : R) : mat :=
  let colY := mv (RotZ yaw) (V 0 1 0) in
  let colZ := mv (mm (RotZ yaw) (RotY pitch)) (V 1 0 0) in
  M 0 (vx colY) (vx colZ) 0 (vy colY) (vy colZ) 1 (vz colY) (vz colZ).

(** KinematicRepresentation.cpp 307-399: encodeVelocity *)
Definition encodeVelocity (xin vin vout : nat) (c : coordinate_system) (o : orientation_system) (u : angular_units) : prog bool :=
  LET ok := checkVectorSize vin c o IN
  if negb ok then ret false else
  LET n := vsize vout IN
  rsz vout (Nat.max 6 n) ;;
  let off := offset c in
  match o with
  | AXIS_ANGLE =>
      LET a0 := rd vin (0 + off) IN LET a1 := rd vin (1 + off) IN LET a2 := rd vin (2 + off) IN
      LET a3 := rd vin (3 + off) IN
      put3 vout 3 (GetRot (Rot (V a0 a1 a2) (degToRadHelper u a3))) ;; encode_coord vin vout c
  | AXIS_ANGLE_SCALED =>
      LET a0 := rd vin (0 + off) IN wr vout 3 (degToRadHelper u a0) ;;
      LET a1 := rd vin (1 + off) IN wr vout 4 (degToRadHelper u a1) ;;
      LET a2 := rd vin (2 + off) IN wr vout 5 (degToRadHelper u a2) ;; encode_coord vin vout c
  | O_RPY =>
      LET yaw := rd xin (2 + off) IN LET pitch := rd xin (1 + off) IN
      LET a0 := rd vin (0 + off) IN LET a1 := rd vin (1 + off) IN LET a2 := rd vin (2 + off) IN
      put3 vout 3 (mv (rpy_rates (degToRadHelper u pitch) (degToRadHelper u yaw))
                      (V (degToRadHelper u a0) (degToRadHelper u a1) (degToRadHelper u a2))) ;; encode_coord vin vout c
  | EULER_YZ | EULER_ZYZ | POLAR_AZIMUTH => ret false
  | ORIENT_NONE => wr vout 5 0 ;; wr vout 4 0 ;; wr vout 3 0 ;; encode_coord vin vout c
  end.

(** KinematicRepresentation.cpp 403-492: decodeVelocity *)
Definition decodeVelocity (xin vin vout : nat) (c : coordinate_system) (o : orientation_system) (u : angular_units) : prog bool :=
  LET ok := checkVectorSize vin CARTESIAN AXIS_ANGLE_SCALED IN
  if negb ok then ret false else
  let off := offset c in
  match o with
  | AXIS_ANGLE =>
      grow vout (4 + off) ;;
      LET a0 := rd vin 3 IN LET a1 := rd vin 4 IN LET a2 := rd vin 5 IN
      let axis := V a0 a1 a2 in
      wr vout (3 + off) (radToDegHelper u (norm axis)) ;;
      wr vout (0 + off) (vx (normalize axis)) ;;
      wr vout (1 + off) (vy (normalize axis)) ;;
      wr vout (2 + off) (vz (normalize axis)) ;;
      rsz vout (4 + off) ;; decode_coord vin vout c
  | AXIS_ANGLE_SCALED =>
      grow vout (3 + off) ;;
      LET a0 := rd vin 3 IN wr vout (0 + off) (radToDegHelper u a0) ;;
      LET a1 := rd vin 4 IN wr vout (1 + off) (radToDegHelper u a1) ;;
      LET a2 := rd vin 5 IN wr vout (2 + off) (radToDegHelper u a2) ;;
      rsz vout (3 + off) ;; decode_coord vin vout c
  | O_RPY =>
      grow vout (3 + off) ;;
      LET yaw := rd xin 5 IN LET pitch := rd xin 4 IN
      LET a0 := rd vin 3 IN LET a1 := rd vin 4 IN LET a2 := rd vin 5 IN
      let w := mv (mT (rpy_rates pitch yaw)) (V a0 a1 a2) in
      wr vout (0 + off) (radToDegHelper u (vx w)) ;;
      wr vout (1 + off) (radToDegHelper u (vy w)) ;;
      wr vout (2 + off) (radToDegHelper u (vz w)) ;;
      rsz vout (3 + off) ;; decode_coord vin vout c
  | EULER_YZ | EULER_ZYZ | POLAR_AZIMUTH => ret false
  | ORIENT_NONE => rsz vout off ;; decode_coord vin vout c
  end.

(** KinematicRepresentation.cpp 496-512: encodeAcceleration, decodeAcceleration *)
Definition encodeAcceleration (x xd xdd_in xdd_out : nat) (c : coordinate_system) (o : orientation_system) (u : angular_units) : prog bool := ret false.
Definition decodeAcceleration (x xd xdd_in xdd_out : nat) (c : coordinate_system) (o : orientation_system) (u : angular_units) : prog bool := ret false.

(** KinematicRepresentation.cpp 530-617: parseEnumerator (result and value stored) *)
Definition parse_coord (s : string) (fallback : coordinate_system) : bool * coordinate_system :=
  if String.eqb s "cartesian" then (true, CARTESIAN)
  else if String.eqb s "cylindrical" then (true, CYLINDRICAL)
  else if String.eqb s "spherical" then (true, SPHERICAL)
  else if String.eqb s "none" then (true, COORD_NONE)
  else (false, fallback).
Definition parse_orient (s : string) (fallback : orientation_system) : bool * orientation_system :=
  if String.eqb s "axisAngle" then (true, AXIS_ANGLE)
  else if String.eqb s "axisAngleScaled" then (true, AXIS_ANGLE_SCALED)
  else if String.eqb s "RPY" then (true, O_RPY)
  else if String.eqb s "eulerYZ" then (true, EULER_YZ)
  else if String.eqb s "eulerZYZ" then (true, EULER_ZYZ)
  else if String.eqb s "polarAzimuth" then (true, POLAR_AZIMUTH)
  else if String.eqb s "none" then (true, ORIENT_NONE)
  else (false, fallback).
Definition parse_units (s : string) (fallback : angular_units) : bool * angular_units :=
  if String.eqb s "degrees" then (true, DEGREES)
  else if String.eqb s "radians" then (true, RADIANS)
  else (false, fallback).

(** ** KdlVectorConverter.cpp *)

(** 18-37: vectorToFrame *)
Definition vectorToFrame (x : list R) : frame :=
  match x with
  | [a; b; c; d; e; f] => F (Rot (V d e f) (norm (V d e f))) (V a b c)
  | _ => fid
  end.
(** 41-56: frameToVector *)
Definition frameToVector (h : frame) : list R :=
  let r := GetRot (fM h) in [vx (fp h); vy (fp h); vz (fp h); vx r; vy r; vz r].
(** 60-79, 83-96: vectorToTwist, twistToVector *)
Definition vectorToTwist (x : list R) : twist :=
  match x with [a; b; c; d; e; f] => Tw (V a b c) (V d e f) | _ => twist_zero end.
Definition twistToVector (t : twist) : list R :=
  [vx (t_vel t); vy (t_vel t); vz (t_vel t); vx (t_rot t); vy (t_rot t); vz (t_rot t)].
(** 100-119, 123-136: vectorToWrench, wrenchToVector *)
Definition vectorToWrench (x : list R) : wrench :=
  match x with [a; b; c; d; e; f] => Wr (V a b c) (V d e f) | _ => wrench_zero end.
Definition wrenchToVector (w : wrench) : list R :=
  [vx (w_force w); vy (w_force w); vz (w_force w); vx (w_torque w); vy (w_torque w); vz (w_torque w)].
