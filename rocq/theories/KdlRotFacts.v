(** Proofs about rotation vectors, roll-pitch-yaw and Euler angles. *)
From Coq Require Import Reals Lra List Bool Psatz.
From Verif Require Import Kdl KdlFacts Trig TrigFacts KdlRot.
Open Scope R_scope.

(** ** Entries of a rotation matrix *)
Section Entries.
Variable m : mat.
Hypothesis RM : rotation_matrix m.
Lemma rows_cols :
  (m00 m * m00 m + m01 m * m01 m + m02 m * m02 m = 1 /\
   m10 m * m10 m + m11 m * m11 m + m12 m * m12 m = 1 /\
   m20 m * m20 m + m21 m * m21 m + m22 m * m22 m = 1 /\
   m00 m * m10 m + m01 m * m11 m + m02 m * m12 m = 0 /\
   m00 m * m20 m + m01 m * m21 m + m02 m * m22 m = 0 /\
   m10 m * m20 m + m11 m * m21 m + m12 m * m22 m = 0) /\
  (m00 m * m00 m + m10 m * m10 m + m20 m * m20 m = 1 /\
   m01 m * m01 m + m11 m * m11 m + m21 m * m21 m = 1 /\
   m02 m * m02 m + m12 m * m12 m + m22 m * m22 m = 1 /\
   m00 m * m01 m + m10 m * m11 m + m20 m * m21 m = 0 /\
   m00 m * m02 m + m10 m * m12 m + m20 m * m22 m = 0 /\
   m01 m * m02 m + m11 m * m12 m + m21 m * m22 m = 0).
Proof.
  pose proof (rot_MT m RM) as A. pose proof (rot_TM m RM) as B.
  unfold mm, mT, mid in A, B; cbn [m00 m01 m02 m10 m11 m12 m20 m21 m22] in A, B. injection A as ?????????. injection B as ?????????. auto 20.
Qed.
Lemma cofs :
  m00 m = m11 m * m22 m - m12 m * m21 m /\ m01 m = m12 m * m20 m - m10 m * m22 m /\ m02 m = m10 m * m21 m - m11 m * m20 m /\
  m10 m = m02 m * m21 m - m01 m * m22 m /\ m11 m = m00 m * m22 m - m02 m * m20 m /\ m12 m = m01 m * m20 m - m00 m * m21 m /\
  m20 m = m01 m * m12 m - m02 m * m11 m /\ m21 m = m02 m * m10 m - m00 m * m12 m /\ m22 m = m00 m * m11 m - m01 m * m10 m.
Proof.
  pose proof (rot_adj m RM) as A. unfold mT, adj in A; cbn [m00 m01 m02 m10 m11 m12 m20 m21 m22] in A. injection A as ?????????.
  repeat split; lra.
Qed.

(** twice the skew part, and the trace *)
Definition sk : vec := V (m21 m - m12 m) (m02 m - m20 m) (m10 m - m01 m).
Definition tr : R := m00 m + m11 m + m22 m.
Lemma sk_norm : dot sk sk = (1 + tr) * (3 - tr).
Proof.
  destruct rows_cols as [(A1 & A2 & A3 & A4 & A5 & A6) (B1 & B2 & B3 & B4 & B5 & B6)].
  destruct cofs as (C1 & C2 & C3 & C4 & C5 & C6 & C7 & C8 & C9).
  unfold dot, sk, tr; cbn [vx vy vz]. clear - A1 A2 A3 C1 C5 C9. ring_simplify. lra.
Qed.
Lemma sk_outer :
  vx sk * vx sk = (1 + tr) * (1 + m00 m - m11 m - m22 m) /\
  vy sk * vy sk = (1 + tr) * (1 + m11 m - m00 m - m22 m) /\
  vz sk * vz sk = (1 + tr) * (1 + m22 m - m00 m - m11 m) /\
  vx sk * vy sk = (1 + tr) * (m01 m + m10 m) /\
  vx sk * vz sk = (1 + tr) * (m02 m + m20 m) /\
  vy sk * vz sk = (1 + tr) * (m12 m + m21 m).
Proof.
  destruct rows_cols as [(A1 & A2 & A3 & A4 & A5 & A6) (B1 & B2 & B3 & B4 & B5 & B6)].
  destruct cofs as (C1 & C2 & C3 & C4 & C5 & C6 & C7 & C8 & C9).
  unfold sk, tr; cbn [vx vy vz].
  repeat split; ring_simplify; lra.
Qed.
End Entries.

Lemma comp_le_norm : forall v, Rabs (vx v) <= norm v /\ Rabs (vy v) <= norm v /\ Rabs (vz v) <= norm v.
Proof.
  intros v. pose proof (norm_nonneg v). pose proof (norm_sqr v). unfold dot in *.
  repeat split; apply Rabs_le; nra.
Qed.

Lemma polar1 : forall y x, y * y + x * x = 1 -> cos (atan2 y x) = x /\ sin (atan2 y x) = y.
Proof.
  intros y x H. pose proof (atan2_polar y x) as P. cbv zeta in P. 
  replace (x * x + y * y) with 1 in P by lra. rewrite sqrt_1 in P. lra.
Qed.

(** axis and angle read from the skew part rebuild the matrix *)
Lemma rebuild : forall m, rotation_matrix m -> 0 < norm (sk m) ->
  Rot2 (vscale (/ norm (sk m)) (sk m)) (atan2 (norm (sk m) / 2) ((tr m - 1) / 2)) = m.
Proof.
  intros m RM P. pose proof (sk_norm m RM) as N. pose proof (norm_sqr (sk m)) as Q. rewrite N in Q.
  destruct (polar1 (norm (sk m) / 2) ((tr m - 1) / 2)) as [C S].
  { replace (norm (sk m) / 2 * (norm (sk m) / 2)) with ((norm (sk m) * norm (sk m)) / 4) by field. rewrite Q. field. }
  unfold Rot2. rewrite C, S. destruct (sk_outer m RM) as (O1 & O2 & O3 & O4 & O5 & O6).
  set (k := norm (sk m)) in *. assert (K : k <> 0) by lra.
  assert (T : 3 - tr m <> 0). { intro E. rewrite E in Q. nra. }
  assert (T' : 1 + tr m <> 0). { intro E. rewrite E in Q. nra. }
  assert (X : forall a b s, a * b = (1 + tr m) * s -> (1 - (tr m - 1) / 2) * (/ k * a) * (/ k * b) = s / 2).
  { intros a b s H. replace ((1 - (tr m - 1) / 2) * (/ k * a) * (/ k * b)) with ((3 - tr m) / 2 * (a * b) / (k * k)) by (field; auto).
    rewrite Q, H. field; auto. }
  destruct m as [a00 a01 a02 a10 a11 a12 a20 a21 a22]. cbn [vscale vx vy vz].
  rewrite (X _ _ _ O1), (X _ _ _ O2), (X _ _ _ O3), (X _ _ _ O4), (X _ _ _ O5), (X _ _ _ O6).
  unfold tr, sk in *; cbn [vx vy vz m00 m01 m02 m10 m11 m12 m20 m21 m22] in *.
  assert (Y : forall a, k / 2 * (/ k * a) = a / 2) by (intro; field; auto). rewrite !Y. f_equal; field.
Qed.
Lemma GetRot_generic : forall m, rotation_matrix m -> off_log m ->
  exists a t, GetRot m = vscale t a /\ unit a /\ kdl_eps <= t < PI /\ Rot2 a t = m.
Proof.
  intros m RM OFF. pose proof kdl_eps_pos as EP.
  assert (NG : 2 * kdl_eps <= norm (sk m)).
  { destruct (comp_le_norm (sk m)) as (A & B & C). cbn [sk vx vy vz] in A, B, C.
    destruct OFF as [O|[O|O]]; rewrite Rabs_minus_sym in O; [|rewrite Rabs_minus_sym in O|]; lra. }
  unfold GetRot, GetRotAngle.
  assert (G : Rltb (Rabs (m01 m - m10 m)) kdl_eps && Rltb (Rabs (m02 m - m20 m)) kdl_eps && Rltb (Rabs (m12 m - m21 m)) kdl_eps = false).
  { apply andb_false_iff. destruct OFF as [O|[O|O]].
    - left. apply andb_false_iff. left. apply Rltb_false. lra.
    - left. apply andb_false_iff. right. apply Rltb_false. lra.
    - right. apply Rltb_false. lra. }
  rewrite G. cbn [fst snd]. fold (sk m) (tr m). exists (normalize (sk m)), (atan2 (norm (sk m) / 2) ((tr m - 1) / 2)).
  split; auto. split; [apply normalize_unit|].
  assert (NN : normalize (sk m) = vscale (/ norm (sk m)) (sk m)).
  { unfold normalize. replace (Rltb (norm (sk m)) kdl_eps) with false; auto. symmetry. apply Rltb_false. lra. }
  split; [|rewrite NN; apply rebuild; auto; lra].
  pose proof (sk_norm m RM) as N. pose proof (norm_sqr (sk m)) as Q. rewrite N in Q.
  destruct (polar1 (norm (sk m) / 2) ((tr m - 1) / 2)) as [C S].
  { replace (norm (sk m) / 2 * (norm (sk m) / 2)) with ((norm (sk m) * norm (sk m)) / 4) by field. rewrite Q. field. }
  pose proof (atan2_bound (norm (sk m) / 2) ((tr m - 1) / 2)) as B.
  set (th := atan2 (norm (sk m) / 2) ((tr m - 1) / 2)) in *.
  assert (SG : kdl_eps <= sin th) by lra.
  assert (0 < th). { destruct (Rle_or_lt th 0) as [L|L]; auto. pose proof (sin_ge_0 (- th)) as Z. rewrite sin_neg in Z. lra. }
  split.
  - pose proof (sin_abs_le th) as L. rewrite (Rabs_pos_eq (sin th)), (Rabs_pos_eq th) in L by lra. lra.
  - destruct (Req_dec th PI) as [E|]; [|lra]. rewrite E, sin_PI in SG. lra.
Qed.

Lemma normalize_scaled : forall a t, unit a -> kdl_eps <= t -> normalize (vscale t a) = a.
Proof.
  intros a t U T. pose proof kdl_eps_pos. unfold normalize. rewrite norm_scale, (unit_norm a U), Rabs_pos_eq, Rmult_1_r by lra.
  replace (Rltb t kdl_eps) with false by (symmetry; apply Rltb_false; lra).
  rewrite vscale_vscale. replace (/ t * t) with 1 by (field; lra). apply vscale_1.
Qed.
Lemma rot_of_scaled : forall a t, unit a -> kdl_eps <= t -> rot_of (vscale t a) = Rot2 a t.
Proof.
  intros a t U T. pose proof kdl_eps_pos. unfold rot_of, Rot. rewrite normalize_scaled by auto.
  rewrite norm_scale, (unit_norm a U), Rabs_pos_eq, Rmult_1_r by lra. reflexivity.
Qed.
Lemma rot_of_zero : rot_of vzero = mid.
Proof. unfold rot_of, Rot. replace (norm vzero) with 0; [apply Rot2_zero|]. unfold norm. rewrite dot_zero_l, sqrt_0. reflexivity. Qed.
Lemma rot_of_rot : forall r, rotation_matrix (rot_of r).
Proof. intros. unfold rot_of, Rot. apply Rot2_rot, normalize_unit. Qed.

Lemma GetRot_id : GetRot mid = vzero.
Proof.
  pose proof kdl_eps_pos. unfold GetRot, GetRotAngle, mid; cbn [m00 m01 m02 m10 m11 m12 m20 m21 m22].
  replace (0 - 0) with 0 by ring. replace (0 + 0) with 0 by ring. replace (1 + 1 + 1 - 3) with 0 by ring. rewrite Rabs_R0.
  replace (Rltb 0 kdl_eps) with true by (symmetry; apply Rltb_true; lra).
  replace (Rltb 0 (10 * kdl_eps)) with true by (symmetry; apply Rltb_true; lra). cbn [andb fst snd]. vring.
Qed.

Lemma half_axis : forall xx yy zz xy xz yz, xx + yy + zz = 1 -> xy * xy = xx * yy -> xz * xz = xx * zz -> xy * xz = xx * yz ->
  yy <= xx -> zz <= xx -> let s := sqrt xx in s * s = xx /\ 0 < s /\
  s * (xy / s) = xy /\ s * (xz / s) = xz /\ xy / s * (xy / s) = yy /\ xz / s * (xz / s) = zz /\ xy / s * (xz / s) = yz.
Proof.
  intros xx yy zz xy xz yz T A B C Y Z s. assert (P : 0 < xx) by lra.
  assert (S : s * s = xx) by (apply sqrt_def; lra). assert (S0 : 0 < s) by (apply sqrt_lt_R0; auto).
  assert (W : forall a b c, a * b = xx * c -> a / s * (b / s) = c).
  { intros a b c H. replace (a / s * (b / s)) with (a * b / (s * s)) by (field; lra). rewrite H, S. field. lra. }
  repeat split; auto; field; lra.
Qed.

Lemma GetRot_half : forall m, rotation_matrix m -> m01 m = m10 m -> m02 m = m20 m -> m12 m = m21 m -> m <> mid ->
  exists a, GetRot m = vscale PI a /\ unit a /\ Rot2 a PI = m.
Proof.
  intros m RM S1 S2 S3 NI. pose proof kdl_eps_pos as EP.
  destruct (rows_cols m RM) as [(A1 & A2 & A3 & A4 & A5 & A6) _].
  destruct (cofs m RM) as (C1 & C2 & C3 & C4 & C5 & C6 & C7 & C8 & C9).
  pose proof (sk_norm m RM) as N. unfold dot, sk, tr in N. cbn [vx vy vz] in N. rewrite S1, S2, S3 in N.
  assert (T : m00 m + m11 m + m22 m = -1).
  { destruct (Req_dec (m00 m + m11 m + m22 m) 3) as [E|E].
    - exfalso. apply NI. assert (m00 m = 1 /\ m11 m = 1 /\ m22 m = 1) as (D1 & D2 & D3) by (repeat split; nra).
      assert (m01 m = 0 /\ m02 m = 0 /\ m12 m = 0) as (E1 & E2 & E3) by (rewrite D1 in A1; rewrite D2 in A2; repeat split; nra).
      destruct m as [? ? ? ? ? ? ? ? ?]. unfold mid. cbn in *. congruence.
    - assert (m10 m - m10 m = 0) by ring. nra. }
  unfold GetRot, GetRotAngle. rewrite S1, S2, S3.
  replace (m10 m - m10 m) with 0 by ring. replace (m20 m - m20 m) with 0 by ring. replace (m21 m - m21 m) with 0 by ring.
  rewrite Rabs_R0. replace (Rltb 0 kdl_eps) with true by (symmetry; apply Rltb_true; lra). cbn [andb].
  replace (Rltb (Rabs (m00 m + m11 m + m22 m - 3)) (10 * kdl_eps)) with false.
  2:{ symmetry. apply Rltb_false. rewrite T. replace (-1 - 3) with (- (4)) by ring. rewrite Rabs_Ropp, Rabs_pos_eq by lra. unfold kdl_eps. lra. }
  rewrite andb_false_r.
  set (xx := (m00 m + 1) / 2). set (yy := (m11 m + 1) / 2). set (zz := (m22 m + 1) / 2).
  set (xy := (m10 m + m10 m) / 4). set (xz := (m20 m + m20 m) / 4). set (yz := (m21 m + m21 m) / 4).
  assert (T1 : xx + yy + zz = 1) by (unfold xx, yy, zz; lra).
  rewrite S1, S2, S3 in *.
  assert (P1 : xy * xy = xx * yy) by (unfold xx, yy, xy; nra).
  assert (P2 : xz * xz = xx * zz) by (unfold xx, zz, xz; nra).
  assert (P3 : yz * yz = yy * zz) by (unfold yy, zz, yz; nra).
  assert (Q1 : xy * xz = xx * yz) by (unfold xx, yz, xy, xz; nra).
  assert (Q2 : xy * yz = yy * xz) by (unfold yy, yz, xy, xz; nra).
  assert (Q3 : xz * yz = zz * xy) by (unfold zz, yz, xy, xz; nra).
  assert (M : m = M (-1 + 2 * xx) (2 * xy) (2 * xz) (2 * xy) (-1 + 2 * yy) (2 * yz) (2 * xz) (2 * yz) (-1 + 2 * zz)).
  { destruct m as [? ? ? ? ? ? ? ? ?]. cbn in *. unfold xx, yy, zz, xy, xz, yz. f_equal; try lra. }
  clearbody xx yy zz xy xz yz. clear - T1 P1 P2 P3 Q1 Q2 Q3 M.
  assert (G : forall a b c, a * a = xx -> b * b = yy -> c * c = zz -> a * b = xy -> a * c = xz -> b * c = yz ->
    unit (V a b c) /\ Rot2 (V a b c) PI = m).
  { intros a b c H1 H2 H3 H4 H5 H6. split; [unfold unit, dot; cbn; lra|]. rewrite M. unfold Rot2. rewrite cos_PI, sin_PI. cbn [vx vy vz].
    f_equal; nra. }
  destruct (Rltb yy xx && Rltb zz xx) eqn:E1.
  - apply andb_true_iff in E1 as [E1 E2]. apply Rltb_true in E1, E2. cbn [fst snd].
    destruct (half_axis xx yy zz xy xz yz) as (H1 & H2 & H3 & H4 & H5 & H6 & H7); auto; try lra. eexists; split; [reflexivity|]. apply G; auto.
  - destruct (Rltb zz yy) eqn:E2.
    + apply Rltb_true in E2. cbn [fst snd]. assert (xx <= yy).
      { apply andb_false_iff in E1 as [E1|E1]; apply Rltb_false in E1; lra. }
      destruct (half_axis yy xx zz xy yz xz) as (H1 & H2 & H3 & H4 & H5 & H6 & H7); auto; try lra. eexists; split; [reflexivity|]. apply G; auto; lra.
    + apply Rltb_false in E2. cbn [fst snd]. assert (xx <= zz).
      { apply andb_false_iff in E1 as [E1|E1]; apply Rltb_false in E1; lra. }
      destruct (half_axis zz xx yy xz yz xy) as (H1 & H2 & H3 & H4 & H5 & H6 & H7); auto; try lra. eexists; split; [reflexivity|]. apply G; auto; lra.
Qed.

(** rotations whose rotation vector KDL recovers exactly: away from the singularities, or
    exactly at them *)
Definition good_log (m : mat) : Prop := off_log m \/ (m01 m = m10 m /\ m02 m = m20 m /\ m12 m = m21 m).
Lemma rot_of_GetRot : forall m, rotation_matrix m -> good_log m -> rot_of (GetRot m) = m.
Proof.
  intros m RM [O|(S1 & S2 & S3)].
  - destruct (GetRot_generic m RM O) as (a & t & -> & U & [T _] & E). rewrite rot_of_scaled; auto.
  - assert (D : m = mid \/ m <> mid).
    { destruct m as [a b c d e f g h i]. unfold mid.
      destruct (Req_dec a 1) as [->|N]; [|right; intro Q; injection Q; intros; contradiction].
      destruct (Req_dec b 0) as [->|N]; [|right; intro Q; injection Q; intros; contradiction].
      destruct (Req_dec c 0) as [->|N]; [|right; intro Q; injection Q; intros; contradiction].
      destruct (Req_dec d 0) as [->|N]; [|right; intro Q; injection Q; intros; contradiction].
      destruct (Req_dec e 1) as [->|N]; [|right; intro Q; injection Q; intros; contradiction].
      destruct (Req_dec f 0) as [->|N]; [|right; intro Q; injection Q; intros; contradiction].
      destruct (Req_dec g 0) as [->|N]; [|right; intro Q; injection Q; intros; contradiction].
      destruct (Req_dec h 0) as [->|N]; [|right; intro Q; injection Q; intros; contradiction].
      destruct (Req_dec i 1) as [->|N]; [|right; intro Q; injection Q; intros; contradiction]. left; reflexivity. }
    destruct D as [->|NI]; [rewrite GetRot_id; apply rot_of_zero|].
    destruct (GetRot_half m RM S1 S2 S3 NI) as (a & -> & U & E). rewrite rot_of_scaled; auto.
    pose proof PI_RGT_0. pose proof PI_4. pose proof PI2_1. unfold kdl_eps. lra.
Qed.

(** the rotation vector of a rotation given by its rotation vector *)
Lemma GetRot_Rot2 : forall a t, unit a -> 0 < t < PI -> kdl_eps <= sin t -> GetRot (Rot2 a t) = vscale t a.
Proof.
  intros a t U T S. pose proof kdl_eps_pos as EP.
  assert (SK : sk (Rot2 a t) = vscale (2 * sin t) a) by (unfold sk, Rot2; vring).
  assert (TR : (tr (Rot2 a t) - 1) / 2 = cos t).
  { replace (tr (Rot2 a t)) with (3 * cos t + (1 - cos t) * dot a a) by (unfold tr, Rot2, dot; cbn [m00 m11 m22]; ring). rewrite U. field. }
  assert (NS : norm (sk (Rot2 a t)) = 2 * sin t).
  { rewrite SK, norm_scale, (unit_norm a U), Rabs_pos_eq by lra. ring. }
  unfold GetRot, GetRotAngle.
  assert (G : Rltb (Rabs (m01 (Rot2 a t) - m10 (Rot2 a t))) kdl_eps && Rltb (Rabs (m02 (Rot2 a t) - m20 (Rot2 a t))) kdl_eps && Rltb (Rabs (m12 (Rot2 a t) - m21 (Rot2 a t))) kdl_eps = false).
  { destruct (_ && _ && _) eqn:E; auto. apply andb_true_iff in E as [E E3]. apply andb_true_iff in E as [E1 E2].
    apply Rltb_true in E1, E2, E3. exfalso.
    assert (D : dot (sk (Rot2 a t)) (sk (Rot2 a t)) <= 3 * (kdl_eps * kdl_eps)).
    { unfold dot, sk; cbn [vx vy vz]. apply Rabs_def2 in E1, E2, E3. nra. }
    rewrite <- norm_sqr, NS in D. nra. }
  rewrite G. cbn [fst snd]. fold (sk (Rot2 a t)) (tr (Rot2 a t)). rewrite TR, NS, SK, normalize_scaled by (auto; lra).
  replace (2 * sin t / 2) with (1 * sin t) by field. rewrite <- (Rmult_1_l (cos t)), atan2_unique by lra. reflexivity.
Qed.
Lemma GetRot_rot_of : forall r, norm r < PI -> kdl_eps <= sin (norm r) -> GetRot (rot_of r) = r.
Proof.
  intros r B S. pose proof kdl_eps_pos. pose proof (norm_nonneg r) as N.
  assert (P : 0 < norm r). { destruct N as [|E]; auto. rewrite <- E, sin_0 in S. lra. }
  assert (L : kdl_eps <= norm r).
  { pose proof (sin_abs_le (norm r)) as L. rewrite !Rabs_pos_eq in L by lra. lra. }
  unfold rot_of, Rot, normalize. replace (Rltb (norm r) kdl_eps) with false by (symmetry; apply Rltb_false; lra).
  assert (U : unit (vscale (/ norm r) r)).
  { unfold unit. rewrite dot_scale_l, dot_scale_r, <- norm_sqr. field. lra. }
  rewrite GetRot_Rot2 by (auto; lra). rewrite vscale_vscale. replace (norm r * / norm r) with 1 by (field; lra). apply vscale_1.
Qed.

Lemma sumsq0 : forall x y, x * x + y * y = 0 -> x = 0.
Proof. intros; nra. Qed.
Lemma abs_sq : forall x, Rabs x * Rabs x = x * x.
Proof. intros. rewrite <- Rabs_mult. apply Rabs_pos_eq. nra. Qed.

(** ** Roll, pitch, yaw *)
Lemma RPY_rot : forall r p y, rotation_matrix (RPY r p y).
Proof. intros. unfold RPY. rewrite RotX_Rot2, RotY_Rot2, RotZ_Rot2. repeat apply rot_mm; apply Rot2_rot; auto using unit_ex, unit_ey, unit_ez. Qed.
Lemma ZYZ_rot : forall r p y, rotation_matrix (EulerZYZ r p y).
Proof. intros. unfold EulerZYZ. rewrite !RotZ_Rot2, RotY_Rot2. repeat apply rot_mm; apply Rot2_rot; auto using unit_ey, unit_ez. Qed.

Lemma polar_c : forall y x c, 0 < c -> y * y + x * x = c * c -> cos (atan2 y x) = x / c /\ sin (atan2 y x) = y / c.
Proof.
  intros y x c C H. destruct (atan2_polar y x) as [A B].
  assert (E : sqrt (x * x + y * y) = c) by (replace (x * x + y * y) with (c * c) by lra; apply sqrt_square; lra).
  rewrite E in A, B. split; apply Rmult_eq_reg_l with c; try lra; rewrite ?A, ?B; field; lra.
Qed.

(** pitch away from the vertical: the angles are exact *)
Lemma GetRPY_generic : forall m, rotation_matrix m ->
  Rabs (snd (fst (GetRPY m))) <= PI / 2 - tiny -> let '(r, p, y) := GetRPY m in RPY r p y = m.
Proof.
  intros m RM. unfold GetRPY. set (pitch := atan2 (- m20 m) (sqrt (m00 m * m00 m + m10 m * m10 m))).
  destruct (rows_cols m RM) as [(A1 & A2 & A3 & A4 & A5 & A6) (B1 & B2 & B3 & B4 & B5 & B6)].
  destruct (cofs m RM) as (C1 & C2 & C3 & C4 & C5 & C6 & C7 & C8 & C9).
  set (c := sqrt (m00 m * m00 m + m10 m * m10 m)) in *.
  assert (CC : c * c = m00 m * m00 m + m10 m * m10 m) by (apply sqrt_def; pose proof (Rle_0_sqr (m00 m)); pose proof (Rle_0_sqr (m10 m)); unfold Rsqr in *; lra).
  assert (CP : 0 <= c) by apply sqrt_pos.
  destruct (polar1 (- m20 m) c) as [PC PS]; [rewrite CC; lra|]. fold pitch in PC, PS.
  destruct (Rltb (PI / 2 - tiny) (Rabs pitch)) eqn:E; cbn [fst snd]; intro LE; [apply Rltb_true in E; lra|]. clear E.
  assert (C0 : c <> 0).
  { intro Z. rewrite Z in PC. assert (0 < tiny) by (unfold tiny; lra). assert (0 < cos pitch).
    { apply cos_gt_0; apply Rabs_def2 with (a := PI / 2); pose proof PI_RGT_0; lra. } lra. }
  destruct (polar_c (m21 m) (m22 m) c) as [RC RS]; [lra | rewrite CC; lra |].
  destruct (polar_c (m10 m) (m00 m) c) as [YC YS]; [lra | rewrite CC; lra |].
  unfold RPY, RotX, RotY, RotZ, mm; cbn [m00 m01 m02 m10 m11 m12 m20 m21 m22].
  rewrite PC, PS, RC, RS, YC, YS.
  assert (K : forall a b, a = b * (c * c) -> a / (c * c) = b) by (intros a b ->; field; auto).
  assert (C1' : c * c = 1 - m20 m * m20 m) by lra.
  destruct m as [a00 a01 a02 a10 a11 a12 a20 a21 a22]; cbn [m00 m01 m02 m10 m11 m12 m20 m21 m22] in *.
  assert (E1 : a00 * a21 = a01 * a20 - a12) by lra. assert (E2 : a10 * a22 = a12 * a20 - a01) by lra.
  assert (E3 : a10 * a21 = a02 + a11 * a20) by lra. assert (E4 : a00 * a22 = a11 + a02 * a20) by lra.
  clear - K C1' E1 E2 E3 E4 C0. f_equal; try solve [field; auto].
  - transitivity ((- a20 * (a00 * a21) - (a10 * a22)) / (c * c)); [field; auto|]. apply K. rewrite C1', E1, E2. ring.
  - transitivity ((- a20 * (a00 * a22) + (a10 * a21)) / (c * c)); [field; auto|]. apply K. rewrite C1', E3, E4. ring.
  - transitivity ((- a20 * (a10 * a21) + (a00 * a22)) / (c * c)); [field; auto|]. apply K. rewrite C1', E3, E4. ring.
  - transitivity ((- a20 * (a10 * a22) - (a00 * a21)) / (c * c)); [field; auto|]. apply K. rewrite C1', E1, E2. ring.
Qed.

(** at the vertical the angles are exact too *)
Lemma GetRPY_vertical : forall m, rotation_matrix m -> m20 m = 1 \/ m20 m = -1 -> let '(r, p, y) := GetRPY m in RPY r p y = m.
Proof.
  intros m RM V. unfold GetRPY.
  destruct (rows_cols m RM) as [(A1 & A2 & A3 & A4 & A5 & A6) (B1 & B2 & B3 & B4 & B5 & B6)].
  destruct (cofs m RM) as (C1 & C2 & C3 & C4 & C5 & C6 & C7 & C8 & C9).
  assert (SQ : m20 m * m20 m = 1) by (destruct V as [-> | ->]; ring).
  pose proof sumsq0 as Z.
  assert (Z1 : m00 m = 0) by (apply (Z _ (m10 m)); lra). assert (Z2 : m10 m = 0) by (apply (Z _ (m00 m)); lra).
  assert (Z3 : m21 m = 0) by (apply (Z _ (m22 m)); lra). assert (Z4 : m22 m = 0) by (apply (Z _ (m21 m)); lra).
  rewrite Z1, Z2 in *. rewrite Z3, Z4 in *. replace (0 * 0 + 0 * 0) with 0 by ring. rewrite sqrt_0.
  destruct (polar1 (- m20 m) 0) as [PC PS]; [lra|].
  set (pitch := atan2 (- m20 m) 0) in *.
  assert (PV : Rabs pitch = PI / 2).
  { unfold pitch, atan2. replace (Rltb 0 0) with false by (symmetry; apply Rltb_false; lra). pose proof PI_RGT_0.
    destruct V as [-> | ->].
    - replace (Rltb 0 (-(1))) with false by (symmetry; apply Rltb_false; lra). replace (Rltb (-(1)) 0) with true by (symmetry; apply Rltb_true; lra).
      rewrite Rabs_Ropp. apply Rabs_pos_eq. lra.
    - replace (Rltb 0 (- -1)) with true by (symmetry; apply Rltb_true; lra). apply Rabs_pos_eq. lra. }
  replace (Rltb (PI / 2 - tiny) (Rabs pitch)) with true by (symmetry; apply Rltb_true; rewrite PV; unfold tiny; lra).
  destruct (polar1 (- m01 m) (m11 m)) as [YC YS]; [lra|].
  unfold RPY, RotX, RotY, RotZ, mm; cbn [m00 m01 m02 m10 m11 m12 m20 m21 m22].
  rewrite PC, PS, YC, YS, cos_0, sin_0.
  destruct m as [a00 a01 a02 a10 a11 a12 a20 a21 a22]; cbn [m00 m01 m02 m10 m11 m12 m20 m21 m22] in *. subst a00 a10 a21 a22.
  f_equal; try ring; lra.
Qed.

(** ** Euler angles ZYZ *)
Lemma GetZYZ_generic : forall m, rotation_matrix m -> Rabs (m22 m) <= 1 - tiny -> let '(a, b, g) := GetEulerZYZ m in EulerZYZ a b g = m.
Proof.
  intros m RM LE. unfold GetEulerZYZ.
  destruct (rows_cols m RM) as [(A1 & A2 & A3 & A4 & A5 & A6) (B1 & B2 & B3 & B4 & B5 & B6)].
  destruct (cofs m RM) as (C1 & C2 & C3 & C4 & C5 & C6 & C7 & C8 & C9).
  replace (Rltb (1 - tiny) (Rabs (m22 m))) with false by (symmetry; apply Rltb_false; lra).
  set (c := sqrt (m20 m * m20 m + m21 m * m21 m)) in *.
  assert (CC : c * c = m20 m * m20 m + m21 m * m21 m) by (apply sqrt_def; pose proof (Rle_0_sqr (m20 m)); pose proof (Rle_0_sqr (m21 m)); unfold Rsqr in *; lra).
  assert (CP : 0 <= c) by apply sqrt_pos.
  assert (C0 : c <> 0).
  { intro Z. rewrite Z in CC. assert (Q : m22 m * m22 m = 1) by lra. assert (0 < tiny) by (unfold tiny; lra).
    pose proof (Rabs_pos (m22 m)) as P. pose proof (abs_sq (m22 m)) as P'. rewrite Q in P'. clear - P P' LE H. nra. }
  destruct (polar1 c (m22 m)) as [BC BS]; [lra|].
  destruct (polar_c (m12 m) (m02 m) c) as [AC AS]; [lra | rewrite CC; lra |].
  destruct (polar_c (m21 m) (- m20 m) c) as [GC GS]; [lra | rewrite CC; lra |].
  unfold EulerZYZ, RotY, RotZ, mm; cbn [m00 m01 m02 m10 m11 m12 m20 m21 m22].
  rewrite AC, AS, BC, BS, GC, GS.
  assert (K : forall a b, a = b * (c * c) -> a / (c * c) = b) by (intros a b ->; field; auto).
  assert (C1' : c * c = 1 - m22 m * m22 m) by lra.
  destruct m as [a00 a01 a02 a10 a11 a12 a20 a21 a22]; cbn [m00 m01 m02 m10 m11 m12 m20 m21 m22] in *.
  assert (E1 : a02 * a20 = a00 * a22 - a11) by lra. assert (E2 : a12 * a21 = a11 * a22 - a00) by lra.
  assert (E3 : a02 * a21 = a10 + a01 * a22) by lra. assert (E4 : a12 * a20 = a01 + a10 * a22) by lra.
  clear - K C1' E1 E2 E3 E4 C0. f_equal; try solve [field; auto].
  - transitivity ((- a22 * (a02 * a20) - (a12 * a21)) / (c * c)); [field; auto|]. apply K. rewrite C1', E1, E2. ring.
  - transitivity ((- a22 * (a02 * a21) + (a12 * a20)) / (c * c)); [field; auto|]. apply K. rewrite C1', E3, E4. ring.
  - transitivity ((- a22 * (a12 * a20) + (a02 * a21)) / (c * c)); [field; auto|]. apply K. rewrite C1', E3, E4. ring.
  - transitivity ((- a22 * (a12 * a21) - (a02 * a20)) / (c * c)); [field; auto|]. apply K. rewrite C1', E1, E2. ring.
Qed.
Lemma GetZYZ_vertical : forall m, rotation_matrix m -> m22 m = 1 \/ m22 m = -1 -> let '(a, b, g) := GetEulerZYZ m in EulerZYZ a b g = m.
Proof.
  intros m RM V. unfold GetEulerZYZ.
  destruct (rows_cols m RM) as [(A1 & A2 & A3 & A4 & A5 & A6) (B1 & B2 & B3 & B4 & B5 & B6)].
  destruct (cofs m RM) as (C1 & C2 & C3 & C4 & C5 & C6 & C7 & C8 & C9).
  assert (SQ : m22 m * m22 m = 1) by (destruct V as [-> | ->]; ring).
  pose proof sumsq0 as Z.
  assert (Z1 : m20 m = 0) by (apply (Z _ (m21 m)); lra). assert (Z2 : m21 m = 0) by (apply (Z _ (m20 m)); lra).
  assert (Z3 : m02 m = 0) by (apply (Z _ (m12 m)); lra). assert (Z4 : m12 m = 0) by (apply (Z _ (m02 m)); lra).
  assert (AB : Rabs (m22 m) = 1) by (destruct V as [E|E]; rewrite E; unfold Rabs; destruct Rcase_abs; lra).
  replace (Rltb (1 - tiny) (Rabs (m22 m))) with true by (symmetry; apply Rltb_true; rewrite AB; unfold tiny; lra).
  rewrite Z1, Z2, Z3, Z4 in *.
  destruct V as [V|V]; rewrite V in *.
  - replace (Rltb 0 1) with true by (symmetry; apply Rltb_true; lra).
    destruct (polar1 (m10 m) (m00 m)) as [YC YS]; [lra|].
    unfold EulerZYZ, RotX, RotY, RotZ, mm; cbn [m00 m01 m02 m10 m11 m12 m20 m21 m22].
    rewrite YC, YS, cos_0, sin_0.
    destruct m as [a00 a01 a02 a10 a11 a12 a20 a21 a22]; cbn [m00 m01 m02 m10 m11 m12 m20 m21 m22] in *. subst a20 a21 a02 a12 a22.
    f_equal; try ring; lra.
  - replace (Rltb 0 (-1)) with false by (symmetry; apply Rltb_false; lra).
    destruct (polar1 (- m10 m) (- m00 m)) as [YC YS]; [lra|].
    unfold EulerZYZ, RotX, RotY, RotZ, mm; cbn [m00 m01 m02 m10 m11 m12 m20 m21 m22].
    rewrite YC, YS, cos_0, sin_0, cos_PI, sin_PI.
    destruct m as [a00 a01 a02 a10 a11 a12 a20 a21 a22]; cbn [m00 m01 m02 m10 m11 m12 m20 m21 m22] in *. subst a20 a21 a02 a12 a22.
    f_equal; try ring; lra.
Qed.
