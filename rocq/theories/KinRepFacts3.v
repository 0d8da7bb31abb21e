(** Proofs about the representation codecs: in-place calls, velocities, converters, names. *)
From Coq Require Import String Reals List Bool Arith Lia Lra.
From Coquelicot Require Import Coquelicot.
From Verif Require Import Kdl KdlFacts Trig TrigFacts KdlRot KdlRotFacts KinRep KinRepSpec KinRepFacts KinRepFacts2.
Import ListNotations.
Open Scope R_scope.
Local Notation S := Datatypes.S.
Local Notation unit := Kdl.unit.

(** ** In-place calls *)
Lemma same_runs : forall (p q : prog bool) m x y b l,
  runs p m (fun r m' => r = b /\ (b = true -> m' x = l)) -> runs q m (fun r m' => r = b /\ (b = true -> m' y = l)) -> same_outcome x y (p m) (q m).
Proof.
  intros p q m x y b l P Q. unfold runs in *. unfold same_outcome. destruct (p m) as [[r m1]|], (q m) as [[r' m2]|]; try contradiction.
  destruct P as [P1 P2], Q as [Q1 Q2]. split; [congruence|]. intro T. rewrite P2, Q2; congruence.
Qed.
Lemma runs_mono : forall A (p : prog A) m (Q Q' : A -> mem -> Prop), runs p m Q -> (forall a m', Q a m' -> Q' a m') -> runs p m Q'.
Proof. intros A p m Q Q' H K. unfold runs in *. destruct (p m) as [[a m']|]; auto. Qed.
Lemma runs_eq : forall A (p : prog A) m a m' (Q : A -> mem -> Prop), p m = Some (a, m') -> Q a m' -> runs p m Q.
Proof. intros. unfold runs. rewrite H. auto. Qed.

Theorem encode_in_place : forall (m : mem) x y c o u, same_outcome x y (encodePose x x c o u m) (encodePose x y c o u m).
Proof.
  intros. destruct (le_lt_dec (expected_size c o) (length (m x))) as [L|L].
  - destruct (pose_supported c o) eqn:SUP.
    + apply same_runs with true (enc_out c o u (m x)); (eapply runs_mono; [apply encode_run; auto|]); intros a m' (A & B & _); auto.
    + apply same_runs with false []; (eapply runs_mono; [apply encode_refuses; auto|]); intros a m' (A & _); split; auto; discriminate.
  - rewrite !encode_short by auto. split; auto. discriminate.
Qed.
Theorem decode_in_place : forall (m : mem) x y c o u, same_outcome x y (decodePose x x c o u m) (decodePose x y c o u m).
Proof.
  intros. destruct (le_lt_dec 6 (length (m x))) as [L|L].
  - destruct (pos_supported c) eqn:SUP; [assert (P : polar_ok o (m x) \/ ~ polar_ok o (m x))|].
    + destruct o; cbn; auto. destruct (Rle_dec (Rabs (nth 5 (m x) 0)) kdl_eps); auto.
    + destruct P as [P|P].
      * apply same_runs with true (dec_out c o u (m x)); (eapply runs_mono; [apply decode_run; auto|]); intros a m' (A & B & _); auto.
      * apply same_runs with false []; (eapply runs_mono; [apply decode_refuses; auto|]); intros a m' (A & _); split; auto; discriminate.
    + apply same_runs with false []; (eapply runs_mono; [apply decode_refuses; auto|]); intros a m' (A & _); split; auto; discriminate.
  - rewrite !decode_short by auto. split; auto. discriminate.
Qed.
Theorem encode_vel_in_place : forall (m : mem) p x y c o u, p <> x -> p <> y -> (enc_pose_size c o <= length (m p))%nat ->
  same_outcome x y (encodeVelocity p x x c o u m) (encodeVelocity p x y c o u m).
Proof.
  intros. destruct (le_lt_dec (expected_size c o) (length (m x))) as [L|L].
  - destruct (velocity_supported c o) eqn:SUP.
    + apply same_runs with true (pos_in c (m x) ++ vlist (enc_vel c o u (m p) (m x))); (eapply runs_mono; [apply encode_vel_run; auto|]); intros a m' (A & B & _); auto.
    + apply same_runs with false []; (eapply runs_mono; [apply encode_vel_refuses; auto|]); intros a m' (A & _); split; auto; discriminate.
  - rewrite !encode_vel_short by auto. split; auto. discriminate.
Qed.
Theorem decode_vel_in_place : forall (m : mem) p x y c o u, p <> x -> p <> y -> (dec_pose_size o <= length (m p))%nat ->
  same_outcome x y (decodeVelocity p x x c o u m) (decodeVelocity p x y c o u m).
Proof.
  intros. destruct (le_lt_dec 6 (length (m x))) as [L|L].
  - destruct (velocity_supported c o) eqn:SUP.
    + apply same_runs with true (dec_pos c (m x) ++ dec_vel o u (m p) (ori (m x))); (eapply runs_mono; [apply decode_vel_run; auto|]); intros a m' (A & B & _); auto.
    + apply same_runs with false []; (eapply runs_mono; [apply decode_vel_refuses; auto|]); intros a m' (A & _); split; auto; discriminate.
  - rewrite !decode_vel_short by auto. split; auto. discriminate.
Qed.

(** ** Velocity round trip *)
Lemma vlist_eq : forall v, V (vx v) (vy v) (vz v) = v.
Proof. intros []; reflexivity. Qed.
Lemma dec_vel_length : forall o u x r, match o with AXIS_ANGLE | AXIS_ANGLE_SCALED | O_RPY | ORIENT_NONE => True | _ => False end ->
  length (dec_vel o u x r) = expected_size COORD_NONE o.
Proof. intros [] u x r H; try contradiction; reflexivity. Qed.
Lemma scale_normalize : forall v, kdl_eps <= norm v -> vscale (norm v) (normalize v) = v.
Proof.
  intros v N. pose proof kdl_eps_pos. unfold normalize. replace (Rltb _ _) with false by (symmetry; apply Rltb_false; auto).
  destruct v. unfold vscale; cbn. f_equal; field; lra.
Qed.


Theorem velocity_round_trip : forall (m : mem) p x y z c o u v w tl, p <> y -> p <> z ->
  m x = vlist v ++ vlist w ++ tl -> vel_writable c o v w ->
  exists m1 m2, decodeVelocity p x y c o u m = Some (true, m1) /\ encodeVelocity p y z c o u m1 = Some (true, m2) /\ m2 z = vlist v ++ vlist w.
Proof.
  intros m p x y z c o u v w tl NY NZ E [WC WO].
  assert (SUP : velocity_supported c o = true) by (destruct c, o; try contradiction; reflexivity).
  assert (D0 : dec_pose_size o = 0%nat) by (destruct o; try contradiction; reflexivity).
  assert (E0 : enc_pose_size c o = 0%nat) by (destruct o; try contradiction; reflexivity).
  destruct (runs_some _ _ _ _ (decode_vel_run m p x y c o u NY SUP ltac:(rewrite E; cbn; lia) ltac:(lia))) as (b & m1 & R1 & B & R2 & R3). subst b.
  assert (LY : (expected_size c o <= length (m1 y))%nat).
  { rewrite R2, app_length, dec_vel_length by (destruct o; try contradiction; auto). destruct c; cbn; lia. }
  destruct (runs_some _ _ _ _ (encode_vel_run m1 p y z c o u NZ SUP LY ltac:(lia))) as (b & m2 & S1 & B & S2 & S3). subst b.
  exists m1, m2. split; [auto|]. split; [auto|]. rewrite S2, R2, E. destruct v as [v0 v1 v2], w as [w0 w1 w2].
  cbn [vlist vx vy vz app]. unfold ori. cbn [nth].
  assert (KEY : match o with AXIS_ANGLE => GetRot (Rot (normalize (V w0 w1 w2)) (norm (V w0 w1 w2))) = V w0 w1 w2 | _ => True end).
  { destruct o; auto. rewrite Rot_normalize. change (GetRot (rot_of (V w0 w1 w2)) = V w0 w1 w2). destruct WO as [WO|[W1 W2]].
    - inversion WO. change (V 0 0 0) with vzero. rewrite rot_of_zero. apply GetRot_id.
    - apply GetRot_rot_of; auto. }
  destruct o; try contradiction; destruct c; try contradiction; cbn [dec_pos nth app dec_vel vlist pos_in enc_vel offset Nat.add vx vy vz];
    rewrite ?d2r, ?r2d, ?vlist_eq, ?KEY; try (inversion WC); try (inversion WO); reflexivity.
Qed.

(** ** Where the round trip fails *)
Lemma norm_x : forall a, 0 <= a -> norm (V a 0 0) = a.
Proof. intros. unfold norm, dot; cbn. replace (a * a + 0 * 0 + 0 * 0) with (a * a) by ring. apply sqrt_square; auto. Qed.
Lemma GetRot_x_three_quarters : GetRot (rot_of (V (3 * PI / 2) 0 0)) = V (- (PI / 2)) 0 0.
Proof.
  pose proof PI_RGT_0 as P. pose proof PI2_1 as P1. pose proof kdl_eps_pos as KE.
  assert (E : rot_of (V (3 * PI / 2) 0 0) = Rot2 (V (-1) 0 0) (PI / 2)).
  { replace (V (3 * PI / 2) 0 0) with (vscale (3 * PI / 2) (V 1 0 0)) by (unfold vscale; cbn; f_equal; ring).
    rewrite rot_of_scaled; [|unfold unit, dot; cbn; ring | unfold kdl_eps; lra].
    unfold Rot2; cbn [vx vy vz]. replace (3 * PI / 2) with (3 * (PI / 2)) by field.
    rewrite sin_3PI2.
    replace (cos (3 * (PI / 2))) with 0; [| symmetry; replace (3 * (PI / 2)) with (PI / 2 + PI) by field; rewrite neg_cos, cos_PI2; ring].
    rewrite sin_PI2, cos_PI2. f_equal; ring. }
  rewrite E, GetRot_Rot2; [unfold vscale; cbn; f_equal; field | unfold unit, dot; cbn; ring | lra |].
  rewrite sin_PI2. unfold kdl_eps. lra.
Qed.
Definition spin_mem : mem := fun r => match r with O => [0; 0; 0; 0; 0; 0] | 1%nat => [0; 0; 0; 3 * PI / 2; 0; 0] | _ => [] end.
Theorem axis_angle_refuted : exists m1 m2, decodeVelocity 0 1 2 CARTESIAN AXIS_ANGLE RADIANS spin_mem = Some (true, m1) /\
  encodeVelocity 0 2 3 CARTESIAN AXIS_ANGLE RADIANS m1 = Some (true, m2) /\ m2 3%nat = [0; 0; 0; - (PI / 2); 0; 0] /\ m2 3%nat <> spin_mem 1%nat.
Proof.
  destruct (runs_some _ _ _ _ (decode_vel_run spin_mem 0 1 2 CARTESIAN AXIS_ANGLE RADIANS ltac:(lia) eq_refl ltac:(cbn; lia) ltac:(cbn; lia))) as (b & m1 & R1 & B & R2 & R3). subst b.
  destruct (runs_some _ _ _ _ (encode_vel_run m1 0 2 3 CARTESIAN AXIS_ANGLE RADIANS ltac:(lia) eq_refl ltac:(rewrite R2; cbn; lia) ltac:(cbn; lia))) as (b & m2 & S1 & B & S2 & S3). subst b.
  assert (E : m2 3%nat = [0; 0; 0; - (PI / 2); 0; 0]).
  { rewrite S2, R2. unfold ori, spin_mem. cbn [dec_pos nth app dec_vel vlist pos_in enc_vel offset Nat.add vx vy vz]. rewrite d2r, r2d, vlist_eq, Rot_normalize.
    change (Rot (V (3 * PI / 2) 0 0) (norm (V (3 * PI / 2) 0 0))) with (rot_of (V (3 * PI / 2) 0 0)). rewrite GetRot_x_three_quarters. reflexivity. }
  exists m1, m2. split; [auto|]. split; [auto|]. split; [auto|]. rewrite E. unfold spin_mem. intro X. injection X. pose proof PI_RGT_0. lra.
Qed.

(** a pose turned by 60 degrees about the y axis: the rotation vector is (0, pi/3, 0) and the
    roll, pitch and yaw are also 0, pi/3, 0, so the same numbers serve both functions *)
Definition pitch_mem : mem := fun r => match r with O => [0; 0; 0; 0; PI / 3; 0] | 1%nat => [0; 0; 0; 1; 0; 0] | _ => [] end.
Lemma rates_pitch : forall p, rpy_rates p 0 = M 0 0 (cos p) 0 1 0 1 0 (- sin p).
Proof. intros. unfold rpy_rates, RotZ, RotY, mm, mv; cbn. rewrite sin_0, cos_0. f_equal; ring. Qed.
Theorem rpy_refuted : exists m1 m2, decodeVelocity 0 1 2 CARTESIAN O_RPY RADIANS pitch_mem = Some (true, m1) /\
  encodeVelocity 0 2 3 CARTESIAN O_RPY RADIANS m1 = Some (true, m2) /\ m2 3%nat <> pitch_mem 1%nat.
Proof.
  destruct (runs_some _ _ _ _ (decode_vel_run pitch_mem 0 1 2 CARTESIAN O_RPY RADIANS ltac:(lia) eq_refl ltac:(cbn; lia) ltac:(cbn; lia))) as (b & m1 & R1 & B & R2 & R3). subst b.
  assert (EP : m1 0%nat = pitch_mem 0%nat) by (apply R3; lia).
  destruct (runs_some _ _ _ _ (encode_vel_run m1 0 2 3 CARTESIAN O_RPY RADIANS ltac:(lia) eq_refl ltac:(rewrite R2; cbn; lia) ltac:(rewrite EP; cbn; lia))) as (b & m2 & S1 & B & S2 & S3). subst b.
  exists m1, m2. split; [auto|]. split; [auto|]. rewrite S2, R2, EP. unfold ori, pitch_mem.
  cbn [dec_pos nth app dec_vel vlist pos_in enc_vel offset Nat.add vx vy vz]. rewrite !rates_pitch.
  unfold degToRadHelper, radToDegHelper, mv, mT; cbn. rewrite cos_PI3, sin_PI3. intro X. injection X. intros. lra.
Qed.

(** ** What the roll-pitch-yaw rates mean *)
Lemma code_rates : forall p y a b c, mv (rpy_rates p y) (V a b c) =
  V (- sin y * b + cos y * cos p * c) (cos y * b + sin y * cos p * c) (a - sin p * c).
Proof. intros. unfold rpy_rates, RotZ, RotY, mm, mv; cbn. f_equal; ring. Qed.
Lemma rpy_mv : forall r p y v, mv (mm (RotZ y) (mm (RotY p) (RotX r))) v =
  let b := vy v * cos r - vz v * sin r in
  let c := vy v * sin r + vz v * cos r in
  let a := vx v * cos p + c * sin p in
  V (a * cos y - b * sin y) (a * sin y + b * cos y) (- (vx v * sin p) + c * cos p).
Proof. intros r p y [v0 v1 v2]. unfold RotZ, RotY, RotX, mm, mv; cbn [vx vy vz m00 m01 m02 m10 m11 m12 m20 m21 m22]. cbv zeta. f_equal; ring. Qed.
(** the matrix of the code gives the angular velocity when the yaw rate comes first *)
Theorem rates_reversed : forall r p y r' p' y',
  angular_velocity (moving_rpy r p y r' p' y') (mv (rpy_rates p y) (V y' p' r')).
Proof.
  intros r p y r' p' y' v. rewrite code_rates. unfold moving_rpy. rewrite rpy_mv. unfold cross; cbn [vx vy vz].
  rewrite !Rmult_0_l, !Rplus_0_r.
  pose proof (sin2_cos2 y) as Y; pose proof (sin2_cos2 p) as PP; unfold Rsqr in *.
  assert (CY : cos y * cos y = 1 - sin y * sin y) by lra. assert (CP : cos p * cos p = 1 - sin p * sin p) by lra.
  split; [|split]; apply is_derive_Reals; (eapply is_derive_ext; [intro t; symmetry; rewrite rpy_mv; cbn [vx vy vz]; reflexivity|]);
    auto_derive; auto; rewrite ?Rmult_0_l, ?Rplus_0_r; ring [CY CP].
Qed.
(** at the identity orientation, a roll rate of 1 rad/s is reported as a turn about z *)
Definition roll_mem : mem := fun r => match r with O => [0; 0; 0; 0; 0; 0] | 1%nat => [0; 0; 0; 1; 0; 0] | _ => [] end.
Theorem rates_refuted : exists m', encodeVelocity 0 1 2 CARTESIAN O_RPY RADIANS roll_mem = Some (true, m') /\
  m' 2%nat = [0; 0; 0; 0; 0; 1] /\ ~ angular_velocity (moving_rpy 0 0 0 1 0 0) (V 0 0 1) /\ angular_velocity (moving_rpy 0 0 0 1 0 0) (V 1 0 0).
Proof.
  destruct (runs_some _ _ _ _ (encode_vel_run roll_mem 0 1 2 CARTESIAN O_RPY RADIANS ltac:(lia) eq_refl ltac:(cbn; lia) ltac:(cbn; lia))) as (b & m' & R1 & B & R2 & R3). subst b.
  exists m'. split; [auto|]. split; [|split].
  - rewrite R2. unfold roll_mem. cbn [nth app vlist pos_in enc_vel offset Nat.add degToRadHelper]. rewrite code_rates. unfold vlist; cbn [vx vy vz app]. rewrite sin_0, cos_0. repeat (apply f_equal2; [ring|]). reflexivity.
  - intro A. destruct (A (V 0 1 0)) as [X _]. unfold moving_rpy in X. rewrite rpy_mv in X. cbn [vx vy vz cross] in X.
    assert (Z : derivable_pt_lim (fun _ => 0) 0 0) by apply derivable_pt_lim_const.
    assert (E : forall t, vx (mv (mm (RotZ (0 + t * 0)) (mm (RotY (0 + t * 0)) (RotX (0 + t * 1)))) (V 0 1 0)) = 0).
    { intro t. rewrite rpy_mv. cbn [vx vy vz]. rewrite !Rmult_0_r, !Rplus_0_l, sin_0, cos_0. ring. }
    apply is_derive_Reals in X. apply (is_derive_ext _ (fun _ => 0) _ _ E) in X. apply is_derive_Reals in X.
    pose proof (uniqueness_limite _ _ _ _ X Z) as U. revert U. rewrite !Rmult_0_l, !Rplus_0_l, sin_0, cos_0. lra.
  - pose proof (rates_reversed 0 0 0 1 0 0) as A. rewrite code_rates, sin_0, cos_0 in A.
    replace (V (-0 * 0 + 1 * 1 * 1) (1 * 0 + 0 * 1 * 1) (0 - 0 * 1)) with (V 1 0 0) in A by (f_equal; ring). exact A.
Qed.

(** with a level pose the matrix of the rates is orthogonal and the round trip works *)
Lemma code_rates_T : forall p y a b c, mv (mT (rpy_rates p y)) (V a b c) =
  V c (- sin y * a + cos y * b) (cos y * cos p * a + sin y * cos p * b - sin p * c).
Proof. intros. unfold rpy_rates, RotZ, RotY, mm, mv, mT; cbn [vx vy vz m00 m01 m02 m10 m11 m12 m20 m21 m22]. f_equal; ring. Qed.
Lemma rates_level : forall y w, mv (rpy_rates 0 y) (mv (mT (rpy_rates 0 y)) w) = w.
Proof.
  intros y [a b c]. rewrite code_rates_T, code_rates, sin_0, cos_0.
  pose proof (sin2_cos2 y) as Y. unfold Rsqr in Y. assert (CY : cos y * cos y = 1 - sin y * sin y) by lra. f_equal; ring [CY].
Qed.
Theorem level_round_trip : forall (m : mem) p p' x y z u a b c yaw v w tl, p <> y -> p' <> y -> p' <> z ->
  m p = [a; b; c; 0; 0; yaw] -> m p' = [a; b; c; 0; 0; radToDegHelper u yaw] -> m x = vlist v ++ vlist w ++ tl ->
  exists m1 m2, decodeVelocity p x y CARTESIAN O_RPY u m = Some (true, m1) /\ encodeVelocity p' y z CARTESIAN O_RPY u m1 = Some (true, m2) /\
    m2 z = vlist v ++ vlist w.
Proof.
  intros m p p' x y z u a b c yaw v w tl N1 N2 N3 EP EP' E.
  destruct (runs_some _ _ _ _ (decode_vel_run m p x y CARTESIAN O_RPY u N1 eq_refl ltac:(rewrite E; cbn; lia) ltac:(rewrite EP; cbn; lia))) as (b' & m1 & R1 & B & R2 & R3). subst b'.
  assert (EP1 : m1 p' = m p') by (apply R3; auto).
  destruct (runs_some _ _ _ _ (encode_vel_run m1 p' y z CARTESIAN O_RPY u N3 eq_refl ltac:(rewrite R2; cbn; lia) ltac:(rewrite EP1, EP'; cbn; lia))) as (b' & m2 & S1 & B & S2 & S3). subst b'.
  exists m1, m2. split; [auto|]. split; [auto|]. rewrite S2, R2, EP1, EP', EP, E. destruct v as [v0 v1 v2], w as [w0 w1 w2]. unfold ori.
  cbn [dec_pos nth app dec_vel vlist pos_in enc_vel offset Nat.add vx vy vz]. rewrite !d2r, !r2d, vlist_eq.
  replace (radians u 0) with 0 by (unfold radians; destruct u; lra). rewrite rates_level. reflexivity.
Qed.

(** ** Converters *)
Theorem frame_round_trip : forall h, rotation_matrix (fM h) -> regular_log (fM h) -> vectorToFrame (frameToVector h) = h.
Proof.
  intros h RM REG. unfold frameToVector, vectorToFrame. rewrite !vlist_eq. fold (rot_of (GetRot (fM h))). rewrite rot_of_GetRot by auto. destruct h; reflexivity.
Qed.
Theorem vector_round_trip : forall p r, norm r < PI -> kdl_eps <= sin (norm r) -> frameToVector (vectorToFrame (vlist p ++ vlist r)) = vlist p ++ vlist r.
Proof.
  intros p r N S1. unfold vectorToFrame, frameToVector, vlist. cbn [app fM fp]. rewrite !vlist_eq. fold (rot_of r). rewrite GetRot_rot_of by auto. reflexivity.
Qed.
Theorem twist_round_trip : (forall t, vectorToTwist (twistToVector t) = t) /\ (forall x, length x = 6%nat -> twistToVector (vectorToTwist x) = x).
Proof.
  split; [intros [[] []]; reflexivity|]. intros x L. do 7 (destruct x as [|? x]; try discriminate L). reflexivity.
Qed.
Theorem wrench_round_trip : (forall w, vectorToWrench (wrenchToVector w) = w) /\ (forall x, length x = 6%nat -> wrenchToVector (vectorToWrench x) = x).
Proof.
  split; [intros [[] []]; reflexivity|]. intros x L. do 7 (destruct x as [|? x]; try discriminate L). reflexivity.
Qed.
Theorem bad_size : forall x, length x <> 6%nat -> vectorToFrame x = fid /\ vectorToTwist x = twist_zero /\ vectorToWrench x = wrench_zero.
Proof. intros x L. do 7 (destruct x as [|? x]; [auto; cbn in L; try lia; auto|]). auto. Qed.
Theorem always_rigid : forall x, rotation_matrix (fM (vectorToFrame x)).
Proof.
  intros x. unfold vectorToFrame. do 7 (destruct x as [|? x]; [first [apply rot_id | apply rot_of_rot]|]). apply rot_id.
Qed.

(** ** Names *)
Theorem parse_names :
  (forall c fb, parse_coord (coordinate_name c) fb = (true, c)) /\
  (forall o fb, parse_orient (orientation_name o) fb = (true, o)) /\
  (forall u fb, parse_units (units_name u) fb = (true, u)).
Proof. repeat split; intros [] fb; reflexivity. Qed.
Theorem parse_unknown :
  (forall s fb, (forall c, s <> coordinate_name c) -> parse_coord s fb = (false, fb)) /\
  (forall s fb, (forall o, s <> orientation_name o) -> parse_orient s fb = (false, fb)) /\
  (forall s fb, (forall u, s <> units_name u) -> parse_units s fb = (false, fb)).
Proof.
  repeat split; intros s fb H.
  - unfold parse_coord. pose proof (H CARTESIAN); pose proof (H CYLINDRICAL); pose proof (H SPHERICAL); pose proof (H COORD_NONE). cbn in *.
    repeat match goal with |- context [String.eqb s ?n] => destruct (String.eqb_spec s n); try contradiction end. reflexivity.
  - unfold parse_orient. pose proof (H AXIS_ANGLE); pose proof (H AXIS_ANGLE_SCALED); pose proof (H O_RPY); pose proof (H EULER_YZ); pose proof (H EULER_ZYZ); pose proof (H POLAR_AZIMUTH); pose proof (H ORIENT_NONE). cbn in *.
    repeat match goal with |- context [String.eqb s ?n] => destruct (String.eqb_spec s n); try contradiction end. reflexivity.
  - unfold parse_units. pose proof (H DEGREES); pose proof (H RADIANS). cbn in *.
    repeat match goal with |- context [String.eqb s ?n] => destruct (String.eqb_spec s n); try contradiction end. reflexivity.
Qed.

(** ** A pose that the Euler YZ system can express but the decoder loses *)
(** at the position (1, 0, 0), a quarter turn about z is (0, 90 degrees) in this system *)
Definition yz_mem : mem := fun r => match r with O => [1; 0; 0; 0; 0; PI / 2] | _ => [] end.
Lemma rot_z_quarter : rot_of (V 0 0 (PI / 2)) = RotZ (PI / 2).
Proof.
  pose proof PI_RGT_0. pose proof PI2_1.
  replace (V 0 0 (PI / 2)) with (vscale (PI / 2) (V 0 0 1)) by (unfold vscale; cbn; f_equal; ring).
  rewrite rot_of_scaled; [| unfold unit, dot; cbn; ring | unfold kdl_eps; lra]. unfold Rot2, RotZ; cbn. f_equal; ring.
Qed.
Lemma atan2_zero : atan2 0 1 = 0.
Proof. replace (atan2 0 1) with (atan2 (1 * sin 0) (1 * cos 0)) by (rewrite sin_0, cos_0; f_equal; ring). apply atan2_unique; pose proof PI_RGT_0; lra. Qed.
Lemma RotZ_0 : RotZ 0 = mid.
Proof. unfold RotZ, mid. rewrite cos_0, sin_0. f_equal; ring. Qed.
Lemma RotY_0 : RotY 0 = mid.
Proof. unfold RotY, mid. rewrite cos_0, sin_0. f_equal; ring. Qed.
Theorem euler_yz_refuted : exists m',
  means EULER_YZ RADIANS (V 1 0 0) [0; PI / 2] (rot_of (V 0 0 (PI / 2))) /\
  decodePose 0 1 CARTESIAN EULER_YZ RADIANS yz_mem = Some (true, m') /\ m' 1%nat = [1; 0; 0; 0; 0] /\
  ~ means EULER_YZ RADIANS (V 1 0 0) [0; 0] (rot_of (V 0 0 (PI / 2))).
Proof.
  destruct (runs_some _ _ _ _ (decode_run yz_mem 0 1 CARTESIAN EULER_YZ RADIANS eq_refl ltac:(cbn; lia) I)) as (b & m' & R1 & B & R2 & R3). subst b.
  exists m'. split; [|split; [auto|split]].
  - cbn [means radians vx vy]. rewrite rot_z_quarter, atan2_zero, RotZ_0, RotY_0, !mm_id_l. reflexivity.
  - rewrite R2. unfold dec_out, dec_or, ori, yz_mem. cbn [nth dec_pos app]. fold (rot_of (V 0 0 (PI / 2))). rewrite rot_z_quarter.
    unfold GetEulerZYZ. cbn [RotZ m22]. rewrite Rabs_R1.
    replace (Rltb (1 - tiny) 1) with true by (symmetry; apply Rltb_true; unfold tiny; lra).
    replace (Rltb 0 1) with true by (symmetry; apply Rltb_true; lra). reflexivity.
  - cbn [means radians vx vy]. rewrite rot_z_quarter, atan2_zero, RotZ_0, RotY_0, !mm_id_l. unfold RotZ, mid. rewrite cos_PI2, sin_PI2. intro X. injection X. lra.
Qed.

(** ** The pose is read without checking its size *)
Definition short_mem : mem := fun r => match r with 1%nat => [0; 0; 0; 1; 0; 0] | _ => [] end.
Theorem pose_size_refuted : encodeVelocity 0 1 2 CARTESIAN O_RPY RADIANS short_mem = None /\ decodeVelocity 0 1 2 CARTESIAN O_RPY RADIANS short_mem = None.
Proof. split; reflexivity. Qed.

(** ** Summaries *)
Theorem all_refuse : forall (m : mem) p xin xout c o u,
  (pose_supported c o = false -> exists m', encodePose xin xout c o u m = Some (false, m') /\ same_elsewhere m m' xout) /\
  (pos_supported c = false \/ ~ polar_ok o (m xin) -> exists m', decodePose xin xout c o u m = Some (false, m') /\ same_elsewhere m m' xout) /\
  (velocity_supported c o = false -> (enc_pose_size c o <= length (m p))%nat ->
     exists m', encodeVelocity p xin xout c o u m = Some (false, m') /\ same_elsewhere m m' xout) /\
  (velocity_supported c o = false -> (dec_pose_size o <= length (m p))%nat ->
     exists m', decodeVelocity p xin xout c o u m = Some (false, m') /\ same_elsewhere m m' xout) /\
  (forall xd, encodeAcceleration p xd xin xout c o u m = Some (false, m) /\ decodeAcceleration p xd xin xout c o u m = Some (false, m)).
Proof.
  intros. split; [|split; [|split; [|split]]].
  - intro H. destruct (runs_some _ _ _ _ (encode_refuses m xin xout c o u H)) as (b & m' & A & B & C). subst b. eauto.
  - intro H. destruct (runs_some _ _ _ _ (decode_refuses m xin xout c o u H)) as (b & m' & A & B & C). subst b. eauto.
  - intros H L. destruct (runs_some _ _ _ _ (encode_vel_refuses m p xin xout c o u H L)) as (b & m' & A & B & C). subst b. eauto.
  - intros H L. destruct (runs_some _ _ _ _ (decode_vel_refuses m p xin xout c o u H L)) as (b & m' & A & B & C). subst b. eauto.
  - intro. split; reflexivity.
Qed.
Theorem all_short : forall (m : mem) p xin xout c o u,
  ((length (m xin) < expected_size c o)%nat -> encodePose xin xout c o u m = Some (false, m) /\ encodeVelocity p xin xout c o u m = Some (false, m)) /\
  ((length (m xin) < 6)%nat -> decodePose xin xout c o u m = Some (false, m) /\ decodeVelocity p xin xout c o u m = Some (false, m)).
Proof.
  intros. split; intro H; split; [apply encode_short | apply encode_vel_short | apply decode_short | apply decode_vel_short]; auto.
Qed.
Lemma out6 : forall c l v, length (pos_in c l ++ vlist v) = 6%nat.
Proof. intros [] l v; reflexivity. Qed.
Lemma outd : forall c o u l, length (dec_out c o u l) = expected_size c o.
Proof. intros [] [] u l; reflexivity. Qed.
Theorem all_accept : forall (m : mem) p xin xout c o u,
  (pose_supported c o = true -> (expected_size c o <= length (m xin))%nat ->
     exists m', encodePose xin xout c o u m = Some (true, m') /\ length (m' xout) = 6%nat /\ same_elsewhere m m' xout) /\
  (pos_supported c = true -> polar_ok o (m xin) -> (6 <= length (m xin))%nat ->
     exists m', decodePose xin xout c o u m = Some (true, m') /\ length (m' xout) = expected_size c o /\ same_elsewhere m m' xout) /\
  (velocity_supported c o = true -> p <> xout -> (expected_size c o <= length (m xin))%nat -> (enc_pose_size c o <= length (m p))%nat ->
     exists m', encodeVelocity p xin xout c o u m = Some (true, m') /\ length (m' xout) = 6%nat /\ same_elsewhere m m' xout) /\
  (velocity_supported c o = true -> p <> xout -> (6 <= length (m xin))%nat -> (dec_pose_size o <= length (m p))%nat ->
     exists m', decodeVelocity p xin xout c o u m = Some (true, m') /\ length (m' xout) = expected_size c o /\ same_elsewhere m m' xout).
Proof.
  intros. split; [|split; [|split]].
  - intros H L. destruct (runs_some _ _ _ _ (encode_run m xin xout c o u H L)) as (b & m' & A & B & C & D). subst b.
    exists m'. rewrite C. unfold enc_out. rewrite out6. auto.
  - intros H P L. destruct (runs_some _ _ _ _ (decode_run m xin xout c o u H L P)) as (b & m' & A & B & C & D). subst b.
    exists m'. rewrite C, outd. auto.
  - intros H N L LX. destruct (runs_some _ _ _ _ (encode_vel_run m p xin xout c o u N H L LX)) as (b & m' & A & B & C & D). subst b.
    exists m'. rewrite C, out6. auto.
  - intros H N L LX. destruct (runs_some _ _ _ _ (decode_vel_run m p xin xout c o u N H L LX)) as (b & m' & A & B & C & D). subst b.
    exists m'. rewrite C. split; [auto|]. split; [|auto]. destruct c; try discriminate H; destruct o; try discriminate H; reflexivity.
Qed.
Theorem velocity_defined : forall (m : mem) p xin xout c o u, p <> xout ->
  ((enc_pose_size c o <= length (m p))%nat -> encodeVelocity p xin xout c o u m <> None) /\
  ((dec_pose_size o <= length (m p))%nat -> decodeVelocity p xin xout c o u m <> None).
Proof.
  intros m p xin xout c o u N. split; intros L.
  - destruct (velocity_supported c o) eqn:V1.
    + destruct (le_lt_dec (expected_size c o) (length (m xin))) as [K|K].
      * destruct (runs_some _ _ _ _ (encode_vel_run m p xin xout c o u N V1 K L)) as (b & m' & A & _). congruence.
      * rewrite encode_vel_short by auto. discriminate.
    + destruct (runs_some _ _ _ _ (encode_vel_refuses m p xin xout c o u V1 L)) as (b & m' & A & _). congruence.
  - destruct (velocity_supported c o) eqn:V1.
    + destruct (le_lt_dec 6 (length (m xin))) as [K|K].
      * destruct (runs_some _ _ _ _ (decode_vel_run m p xin xout c o u N V1 K L)) as (b & m' & A & _). congruence.
      * rewrite decode_vel_short by auto. discriminate.
    + destruct (runs_some _ _ _ _ (decode_vel_refuses m p xin xout c o u V1 L)) as (b & m' & A & _). congruence.
Qed.
Theorem rates_run : forall (m : mem) xp xin xout u a b c r p y r' p' y' l tl, xp <> xout ->
  m xp = [a; b; c; r; p; y] -> m xin = vlist l ++ [y'; p'; r'] ++ tl ->
  exists m' w, encodeVelocity xp xin xout CARTESIAN O_RPY u m = Some (true, m') /\ m' xout = vlist l ++ vlist w /\
    angular_velocity (moving_rpy (radians u r) (radians u p) (radians u y) (radians u r') (radians u p') (radians u y')) w.
Proof.
  intros m xp xin xout u a b c r p y r' p' y' [l0 l1 l2] tl N EP E.
  destruct (runs_some _ _ _ _ (encode_vel_run m xp xin xout CARTESIAN O_RPY u N eq_refl ltac:(rewrite E; cbn; lia) ltac:(rewrite EP; cbn; lia)))
    as (b' & m' & A & B & C & D). subst b'. rewrite EP, E in C.
  exists m', (mv (rpy_rates (radians u p) (radians u y)) (V (radians u y') (radians u p') (radians u r'))).
  split; [auto|]. split; [|apply rates_reversed]. rewrite C. cbn [vlist app nth pos_in enc_vel offset Nat.add vx vy vz]. rewrite !d2r. reflexivity.
Qed.

Lemma in_place_example : exists m', decodePose 0 0 COORD_NONE AXIS_ANGLE_SCALED RADIANS yz_mem = Some (true, m') /\ m' 0%nat = [0; 0; PI / 2].
Proof.
  destruct (runs_some _ _ _ _ (decode_run yz_mem 0 0 COORD_NONE AXIS_ANGLE_SCALED RADIANS eq_refl ltac:(cbn; lia) I)) as (b & m' & R1 & B & R2 & R3).
  subst b. exists m'. split; [exact R1|]. rewrite R2. reflexivity.
Qed.
