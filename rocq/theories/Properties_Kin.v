(** Properties of the representation codecs and converters (C21-C27, C60-C62). *)
From Coq Require Import String Reals List Bool Arith Lia Lra.
From Verif Require Import Kdl KdlFacts Trig KdlRot KdlRotFacts KinRep KinRepSpec KinRepFacts KinRepFacts2 KinRepFacts3 TinyMath TinyMathFacts.
Import ListNotations.
Open Scope R_scope.
Local Notation S := Datatypes.S.

(** C21: pose to vector and back. *)
Theorem C21_frame_vector_frame : forall h, rotation_matrix (fM h) -> regular_log (fM h) ->
  vectorToFrame (frameToVector h) = h.
Proof. exact frame_round_trip. Qed.
Print Assumptions C21_frame_vector_frame.
Example C21_frame_vector_frame_example : rotation_matrix (RotX (PI / 2)) /\ regular_log (RotX (PI / 2)) /\ rotation_matrix mid /\ regular_log mid.
Proof.
  split; [|split; [left|split; [apply rot_id | right; repeat split]]].
  - replace (RotX (PI / 2)) with (Rot2 (V 1 0 0) (PI / 2)) by (unfold Rot2, RotX; cbn; f_equal; ring).
    apply Rot2_rot. unfold Kdl.unit, dot; cbn; ring.
  - right; right. unfold RotX; cbn. rewrite sin_PI2. unfold kdl_eps. unfold Rabs; destruct Rcase_abs; lra.
Qed.

Theorem C21_vector_frame_vector : forall p r, norm r < PI -> kdl_eps <= sin (norm r) ->
  frameToVector (vectorToFrame (vlist p ++ vlist r)) = vlist p ++ vlist r.
Proof. exact vector_round_trip. Qed.
Print Assumptions C21_vector_frame_vector.
Example C21_vector_frame_vector_example : norm (V 1 0 0) < PI /\ kdl_eps <= sin (norm (V 1 0 0)).
Proof.
  rewrite norm_x by lra. pose proof PI2_1. pose proof PI_4. split; [lra|].
  assert (sin (PI / 6) <= sin 1) by (apply sin_incr_1; lra). rewrite sin_PI6 in *. unfold kdl_eps. lra.
Qed.

Theorem C21_twists_wrenches :
  (forall t, vectorToTwist (twistToVector t) = t) /\ (forall x, length x = 6%nat -> twistToVector (vectorToTwist x) = x) /\
  (forall w, vectorToWrench (wrenchToVector w) = w) /\ (forall x, length x = 6%nat -> wrenchToVector (vectorToWrench x) = x).
Proof. exact (conj (proj1 twist_round_trip) (conj (proj2 twist_round_trip) wrench_round_trip)). Qed.
Print Assumptions C21_twists_wrenches.
Example C21_twists_example : twistToVector (vectorToTwist [1; 2; 3; 4; 5; 6]) = [1; 2; 3; 4; 5; 6].
Proof. reflexivity. Qed.

Theorem C21_wrong_size : forall x, length x <> 6%nat ->
  vectorToFrame x = fid /\ vectorToTwist x = twist_zero /\ vectorToWrench x = wrench_zero.
Proof. exact bad_size. Qed.
Print Assumptions C21_wrong_size.
Example C21_wrong_size_example : vectorToFrame [1; 2; 3] = fid.
Proof. reflexivity. Qed.

Theorem C21_always_rigid : forall x, rotation_matrix (fM (vectorToFrame x)).
Proof. exact always_rigid. Qed.
Print Assumptions C21_always_rigid.

(** C22: what the numbers written by decodePose mean, what encodePose makes of such numbers. *)
Theorem C22_decode : forall (m : mem) xin xout c o u p r tl,
  m xin = vlist p ++ vlist r ++ tl -> writable_pos c p -> writable o p r ->
  exists m' lp lo, decodePose xin xout c o u m = Some (true, m') /\ m' xout = lp ++ lo /\
    means_pos c lp p /\ means o u p lo (rot_of r) /\ same_elsewhere m m' xout.
Proof. exact decode_means. Qed.
Print Assumptions C22_decode.
Example C22_decode_example : writable O_RPY (V 1 2 3) vzero /\ writable EULER_ZYZ (V 1 2 3) vzero /\ writable POLAR_AZIMUTH (V 1 2 3) (V 1 0 0) /\
  writable EULER_YZ (V 1 0 0) (V 0 (PI / 2) 0).
Proof.
  assert (Q : rot_of (V 0 (PI / 2) 0) = RotY (PI / 2)).
  { pose proof PI2_1. replace (V 0 (PI / 2) 0) with (vscale (PI / 2) (V 0 1 0)) by (unfold vscale; cbn; f_equal; ring).
    rewrite rot_of_scaled; [| unfold Kdl.unit, dot; cbn; ring | unfold kdl_eps; lra]. unfold Rot2, RotY; cbn. f_equal; ring. }
  cbn [writable]. rewrite rot_of_zero, Q. repeat split.
  - left. cbn. replace (1 * 1 + 0 * 0) with 1 by ring. rewrite sqrt_1. unfold tiny; lra.
  - right. apply Rabs_R1.
  - right. rewrite norm_x by lra. unfold kdl_eps; lra.
  - exists (PI / 2), 0. pose proof PI_RGT_0. split; [lra|]. split; [rewrite cos_PI2, Rabs_R0; unfold tiny; lra|].
    cbn [vx vy]. rewrite atan2_zero, RotZ_0, mm_id_l, mm_id_r. reflexivity.
Qed.

Theorem C22_encode : forall (m : mem) xin xout c o u p lp lo rm tl,
  pose_supported c o = true -> m xin = lp ++ lo ++ tl -> means_pos c lp p -> means o u p lo rm ->
  regular_log rm \/ o = AXIS_ANGLE_SCALED ->
  exists m' r, encodePose xin xout c o u m = Some (true, m') /\ m' xout = vlist p ++ vlist r /\ rot_of r = rm /\ same_elsewhere m m' xout.
Proof. exact encode_means. Qed.
Print Assumptions C22_encode.
Example C22_encode_example : means_pos CARTESIAN [1; 2; 3] (V 1 2 3) /\ means AXIS_ANGLE DEGREES (V 1 2 3) [1; 0; 0; 0] (Rot (V 1 0 0) (0 * PI / 180)).
Proof. split; reflexivity. Qed.

Theorem C22_round_trip : forall (m : mem) x y z c o u p r,
  m x = vlist p ++ vlist r -> pose_supported c o = true -> writable_pos c p -> writable o p r ->
  regular_log (rot_of r) \/ o = AXIS_ANGLE_SCALED ->
  exists m1 m2, decodePose x y c o u m = Some (true, m1) /\ encodePose y z c o u m1 = Some (true, m2) /\
    vectorToFrame (m2 z) = F (rot_of r) p.
Proof. exact decode_encode. Qed.
Print Assumptions C22_round_trip.
Example C22_round_trip_example : regular_log (rot_of vzero) /\ writable O_RPY (V 1 2 3) vzero.
Proof. split; [rewrite rot_of_zero; right; repeat split | exact (proj1 C22_decode_example)]. Qed.

(** C22 fails in the Euler YZ system when the tool axis is vertical: this pose has a form in
    the system, and the decoder writes another one. *)
Theorem C22_euler_yz_refuted : exists m',
  means EULER_YZ RADIANS (V 1 0 0) [0; PI / 2] (rot_of (V 0 0 (PI / 2))) /\
  decodePose 0 1 CARTESIAN EULER_YZ RADIANS yz_mem = Some (true, m') /\ m' 1%nat = [1; 0; 0; 0; 0] /\
  ~ means EULER_YZ RADIANS (V 1 0 0) [0; 0] (rot_of (V 0 0 (PI / 2))).
Proof. exact euler_yz_refuted. Qed.
Print Assumptions C22_euler_yz_refuted.

(** C23: refusals. *)
Theorem C23_unsupported : forall (m : mem) p xin xout c o u,
  (pose_supported c o = false -> exists m', encodePose xin xout c o u m = Some (false, m') /\ same_elsewhere m m' xout) /\
  (pos_supported c = false \/ ~ polar_ok o (m xin) -> exists m', decodePose xin xout c o u m = Some (false, m') /\ same_elsewhere m m' xout) /\
  (velocity_supported c o = false -> (enc_pose_size c o <= length (m p))%nat ->
     exists m', encodeVelocity p xin xout c o u m = Some (false, m') /\ same_elsewhere m m' xout) /\
  (velocity_supported c o = false -> (dec_pose_size o <= length (m p))%nat ->
     exists m', decodeVelocity p xin xout c o u m = Some (false, m') /\ same_elsewhere m m' xout) /\
  (forall xd, encodeAcceleration p xd xin xout c o u m = Some (false, m) /\ decodeAcceleration p xd xin xout c o u m = Some (false, m)).
Proof. exact all_refuse. Qed.
Print Assumptions C23_unsupported.
Example C23_unsupported_example : pose_supported SPHERICAL AXIS_ANGLE = false /\ pose_supported COORD_NONE EULER_YZ = false /\ velocity_supported CARTESIAN EULER_ZYZ = false.
Proof. repeat split. Qed.

Theorem C23_short_input : forall (m : mem) p xin xout c o u,
  ((length (m xin) < expected_size c o)%nat -> encodePose xin xout c o u m = Some (false, m) /\ encodeVelocity p xin xout c o u m = Some (false, m)) /\
  ((length (m xin) < 6)%nat -> decodePose xin xout c o u m = Some (false, m) /\ decodeVelocity p xin xout c o u m = Some (false, m)).
Proof. exact all_short. Qed.
Print Assumptions C23_short_input.
Example C23_short_input_example : expected_size CARTESIAN AXIS_ANGLE = 7%nat /\ expected_size CARTESIAN EULER_YZ = 5%nat /\ expected_size COORD_NONE O_RPY = 3%nat.
Proof. repeat split. Qed.

Theorem C23_supported : forall (m : mem) p xin xout c o u,
  (pose_supported c o = true -> (expected_size c o <= length (m xin))%nat ->
     exists m', encodePose xin xout c o u m = Some (true, m') /\ length (m' xout) = 6%nat /\ same_elsewhere m m' xout) /\
  (pos_supported c = true -> polar_ok o (m xin) -> (6 <= length (m xin))%nat ->
     exists m', decodePose xin xout c o u m = Some (true, m') /\ length (m' xout) = expected_size c o /\ same_elsewhere m m' xout) /\
  (velocity_supported c o = true -> p <> xout -> (expected_size c o <= length (m xin))%nat -> (enc_pose_size c o <= length (m p))%nat ->
     exists m', encodeVelocity p xin xout c o u m = Some (true, m') /\ length (m' xout) = 6%nat /\ same_elsewhere m m' xout) /\
  (velocity_supported c o = true -> p <> xout -> (6 <= length (m xin))%nat -> (dec_pose_size o <= length (m p))%nat ->
     exists m', decodeVelocity p xin xout c o u m = Some (true, m') /\ length (m' xout) = expected_size c o /\ same_elsewhere m m' xout).
Proof. exact all_accept. Qed.
Print Assumptions C23_supported.
Example C23_supported_example : pose_supported CARTESIAN EULER_YZ = true /\ velocity_supported COORD_NONE AXIS_ANGLE = true.
Proof. repeat split. Qed.

(** C24: calling in place. *)
Theorem C24_in_place : forall (m : mem) x y c o u,
  same_outcome x y (encodePose x x c o u m) (encodePose x y c o u m) /\
  same_outcome x y (decodePose x x c o u m) (decodePose x y c o u m).
Proof. exact (fun m x y c o u => conj (encode_in_place m x y c o u) (decode_in_place m x y c o u)). Qed.
Print Assumptions C24_in_place.
Theorem C24_velocity_in_place : forall (m : mem) p x y c o u, p <> x -> p <> y ->
  ((enc_pose_size c o <= length (m p))%nat -> same_outcome x y (encodeVelocity p x x c o u m) (encodeVelocity p x y c o u m)) /\
  ((dec_pose_size o <= length (m p))%nat -> same_outcome x y (decodeVelocity p x x c o u m) (decodeVelocity p x y c o u m)).
Proof. exact (fun m p x y c o u N1 N2 => conj (encode_vel_in_place m p x y c o u N1 N2) (decode_vel_in_place m p x y c o u N1 N2)). Qed.
Print Assumptions C24_velocity_in_place.
Example C24_example : exists m', decodePose 0 0 COORD_NONE AXIS_ANGLE_SCALED RADIANS yz_mem = Some (true, m') /\ m' 0%nat = [0; 0; PI / 2].
Proof. exact in_place_example. Qed.

(** C25: velocities written and read back, in the systems that can carry them.  Missing:
    roll-pitch-yaw with a tilted pose and axis-angle beyond a half turn per second, for which
    it is false (next two theorems). *)
Theorem C25_round_trip_partial : forall (m : mem) p x y z c o u v w tl, p <> y -> p <> z ->
  m x = vlist v ++ vlist w ++ tl -> vel_writable c o v w ->
  exists m1 m2, decodeVelocity p x y c o u m = Some (true, m1) /\ encodeVelocity p y z c o u m1 = Some (true, m2) /\ m2 z = vlist v ++ vlist w.
Proof. exact velocity_round_trip. Qed.
Print Assumptions C25_round_trip_partial.
Example C25_round_trip_example : vel_writable CARTESIAN AXIS_ANGLE_SCALED (V 1 2 3) (V 4 5 6) /\ vel_writable COORD_NONE AXIS_ANGLE vzero (V 1 0 0).
Proof. split; [split; exact I|]. split; [reflexivity|]. right. exact C21_vector_frame_vector_example. Qed.
Theorem C25_level_pose_partial : forall (m : mem) p p' x y z u a b c yaw v w tl, p <> y -> p' <> y -> p' <> z ->
  m p = [a; b; c; 0; 0; yaw] -> m p' = [a; b; c; 0; 0; radToDegHelper u yaw] -> m x = vlist v ++ vlist w ++ tl ->
  exists m1 m2, decodeVelocity p x y CARTESIAN O_RPY u m = Some (true, m1) /\ encodeVelocity p' y z CARTESIAN O_RPY u m1 = Some (true, m2) /\
    m2 z = vlist v ++ vlist w.
Proof. exact level_round_trip. Qed.
Print Assumptions C25_level_pose_partial.
Theorem C25_rpy_refuted : exists m1 m2, decodeVelocity 0 1 2 CARTESIAN O_RPY RADIANS pitch_mem = Some (true, m1) /\
  encodeVelocity 0 2 3 CARTESIAN O_RPY RADIANS m1 = Some (true, m2) /\ m2 3%nat <> pitch_mem 1%nat.
Proof. exact rpy_refuted. Qed.
Print Assumptions C25_rpy_refuted.
Theorem C25_axis_angle_refuted : exists m1 m2, decodeVelocity 0 1 2 CARTESIAN AXIS_ANGLE RADIANS spin_mem = Some (true, m1) /\
  encodeVelocity 0 2 3 CARTESIAN AXIS_ANGLE RADIANS m1 = Some (true, m2) /\ m2 3%nat = [0; 0; 0; - (PI / 2); 0; 0] /\ m2 3%nat <> spin_mem 1%nat.
Proof. exact axis_angle_refuted. Qed.
Print Assumptions C25_axis_angle_refuted.

(** C60: meaning of the roll, pitch and yaw rates.  The numbers are the rates of yaw, pitch
    and roll in this order; in the documented order (roll first) it is false. *)
Theorem C60_rates_partial : forall (m : mem) xp xin xout u a b c r p y r' p' y' l tl, xp <> xout ->
  m xp = [a; b; c; r; p; y] -> m xin = vlist l ++ [y'; p'; r'] ++ tl ->
  exists m' w, encodeVelocity xp xin xout CARTESIAN O_RPY u m = Some (true, m') /\ m' xout = vlist l ++ vlist w /\
    angular_velocity (moving_rpy (radians u r) (radians u p) (radians u y) (radians u r') (radians u p') (radians u y')) w.
Proof. exact rates_run. Qed.
Print Assumptions C60_rates_partial.
Theorem C60_rates_refuted : exists m', encodeVelocity 0 1 2 CARTESIAN O_RPY RADIANS roll_mem = Some (true, m') /\
  m' 2%nat = [0; 0; 0; 0; 0; 1] /\ ~ angular_velocity (moving_rpy 0 0 0 1 0 0) (V 0 0 1) /\ angular_velocity (moving_rpy 0 0 0 1 0 0) (V 1 0 0).
Proof. exact rates_refuted. Qed.
Print Assumptions C60_rates_refuted.

(** C61: names of the enumerators. *)
Theorem C61_names :
  (forall c fb, parse_coord (coordinate_name c) fb = (true, c)) /\
  (forall o fb, parse_orient (orientation_name o) fb = (true, o)) /\
  (forall u fb, parse_units (units_name u) fb = (true, u)).
Proof. exact parse_names. Qed.
Print Assumptions C61_names.
Theorem C61_other_names :
  (forall s fb, (forall c, s <> coordinate_name c) -> parse_coord s fb = (false, fb)) /\
  (forall s fb, (forall o, s <> orientation_name o) -> parse_orient s fb = (false, fb)) /\
  (forall s fb, (forall u, s <> units_name u) -> parse_units s fb = (false, fb)).
Proof. exact parse_unknown. Qed.
Print Assumptions C61_other_names.
Example C61_example : parse_orient "rpy" AXIS_ANGLE_SCALED = (false, AXIS_ANGLE_SCALED) /\ parse_orient "RPY" AXIS_ANGLE_SCALED = (true, O_RPY).
Proof. split; reflexivity. Qed.

(** C62: a pose shorter than needed is not refused, its missing elements are read. *)
Theorem C62_pose_size_refuted : encodeVelocity 0 1 2 CARTESIAN O_RPY RADIANS short_mem = None /\ decodeVelocity 0 1 2 CARTESIAN O_RPY RADIANS short_mem = None.
Proof. exact pose_size_refuted. Qed.
Print Assumptions C62_pose_size_refuted.
Theorem C62_pose_size_partial : forall (m : mem) p xin xout c o u, p <> xout ->
  ((enc_pose_size c o <= length (m p))%nat -> encodeVelocity p xin xout c o u m <> None) /\
  ((dec_pose_size o <= length (m p))%nat -> decodeVelocity p xin xout c o u m <> None).
Proof. exact velocity_defined. Qed.
Print Assumptions C62_pose_size_partial.

(** C26: elementary rotations and homogeneous transforms. *)
Theorem C26_elementary : forall d,
  rotX d = Some (rows3 (RotX (degrees d))) /\ rotY d = Some (rows3 (RotY (degrees d))) /\ rotZ d = Some (rows3 (RotZ (degrees d))).
Proof. exact (fun d => conj (rotX_is d) (conj (rotY_is d) (rotZ_is d))). Qed.
Print Assumptions C26_elementary.
Theorem C26_euler_zyz : forall x y z tl a b c tl', eulerZYZtoH (x :: y :: z :: tl) (a :: b :: c :: tl') =
  Some (homogeneous (mm (RotZ (degrees a)) (mm (RotY (degrees b)) (RotZ (degrees c)))) (V x y z)).
Proof. exact zyz_is. Qed.
Print Assumptions C26_euler_zyz.
Theorem C26_euler_yz : forall x y z tl a b tl', eulerYZtoH (x :: y :: z :: tl) (a :: b :: tl') =
  Some (homogeneous (mm (RotZ (atan2 y x)) (mm (RotY (degrees a)) (RotZ (degrees b)))) (V x y z)).
Proof. exact yz_is. Qed.
Print Assumptions C26_euler_yz.
Theorem C26_update : forall a b c l m p, xUpdateH (a :: b :: c :: l) (homogeneous m p) = Some (homogeneous m (V a b c)).
Proof. exact update_is. Qed.
Print Assumptions C26_update.
Theorem C26_rigid : forall a b c, rotation_matrix (mm (RotZ a) (mm (RotY b) (RotZ c))).
Proof. exact ZYZ_rot. Qed.
Print Assumptions C26_rigid.
Example C26_example : exists h, eulerYZtoH [1; 0; 2] [0; 0] = Some h /\ nth 3 (nth 2 h []) 0 = 2.
Proof. eexists. split; [apply yz_is | reflexivity]. Qed.

(** C27: the angle of axisAngleToH is taken in radians. *)
Theorem C27_axis_angle_partial : forall x y z tl a b c t tl', axisAngleToH (x :: y :: z :: tl) (a :: b :: c :: t :: tl') =
  Some (homogeneous (Rot2 (V a b c) t) (V x y z)).
Proof. exact axis_is. Qed.
Print Assumptions C27_axis_angle_partial.
Theorem C27_rigid_partial : forall x y z tl a b c t tl', Kdl.unit (V a b c) ->
  exists m, axisAngleToH (x :: y :: z :: tl) (a :: b :: c :: t :: tl') = Some (homogeneous m (V x y z)) /\ rotation_matrix m /\ mv m (V a b c) = V a b c.
Proof. exact axis_rigid. Qed.
Print Assumptions C27_rigid_partial.
Example C27_rigid_example : Kdl.unit (V 0 1 0).
Proof. unfold Kdl.unit, dot; cbn; ring. Qed.
Theorem C27_degrees_refuted : axisAngleToH [0; 0; 0] [0; 0; 1; PI] <> Some (homogeneous (Rot2 (V 0 0 1) (degrees PI)) vzero).
Proof. exact axis_degrees_refuted. Qed.
Print Assumptions C27_degrees_refuted.
