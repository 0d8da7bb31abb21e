(** Proofs about the solver of ASIBOT: conversions and forward kinematics. *)
From Coq Require Import Reals Lra Lia List Bool Arith.
From Verif Require Import Kdl KdlFacts KdlRot KdlRotFacts Trig TrigFacts KinRep KinRepSpec KinRepFacts KinRepFacts2 KinRepFacts3 Asibot AsibotSpec.
Import ListNotations.
Open Scope R_scope.
Local Notation S := Datatypes.S.

(** ** Rotation vectors *)
Lemma nano_pos : 0 < / 1000000000 /\ / 1000000000 < kdl_eps.
Proof. unfold kdl_eps. lra. Qed.
Lemma Rot2_0 : forall a, Rot2 a 0 = mid.
Proof. intros. apply Rot2_zero. Qed.
Lemma denotes_rigid : forall x h, denotes x h -> rigid h.
Proof. intros x h (a & t & U & _ & _ & E). unfold rigid. rewrite E. apply Rot2_rot. exact U. Qed.
Lemma denotes_length : forall x h, denotes x h -> length x = 6%nat.
Proof. intros x h (a & t & _ & _ & -> & _). reflexivity. Qed.
Lemma scaled_norm : forall a t, unit a -> 0 <= t -> norm (V (t * vx a) (t * vy a) (t * vz a)) = t.
Proof. intros a t U T. change (V (t * vx a) (t * vy a) (t * vz a)) with (vscale t a). rewrite norm_scale, (unit_norm a U), Rabs_pos_eq by lra. ring. Qed.
Lemma to_matrix : forall x h, denotes x h -> vectorToMatrix x = Some h.
Proof.
  intros x [m p] (a & t & U & T & -> & E). cbn [fM fp] in *. pose proof nano_pos as [N1 N2]. pose proof kdl_eps_pos.
  assert (T0 : 0 <= t) by (destruct T; lra). unfold vectorToMatrix. rewrite scaled_norm by auto. f_equal. f_equal; [|destruct p; reflexivity].
  unfold axis2dcm. destruct T as [->|T].
  - destruct (Reqb 0 0) eqn:R; [|apply Reqb_false in R; lra]. rewrite E, Rot2_0. reflexivity.
  - destruct (Reqb t 0) eqn:R; [apply Reqb_true in R; lra|]. destruct (Rltb (/ 1000000000) t) eqn:L; [|apply Rltb_false in L; lra].
    rewrite E. f_equal. apply vec_eq; cbn; field; lra.
Qed.
Lemma to_frame : forall x h, denotes x h -> vectorToFrame x = h.
Proof.
  intros x [m p] (a & t & U & T & -> & E). cbn [fM fp] in *. unfold vectorToFrame. f_equal; [|destruct p; reflexivity].
  change (V (t * vx a) (t * vy a) (t * vz a)) with (vscale t a). fold (rot_of (vscale t a)). rewrite E. destruct T as [->|T].
  - replace (vscale 0 a) with vzero by (apply vec_eq; cbn; ring). rewrite rot_of_zero, Rot2_0. reflexivity.
  - apply rot_of_scaled; auto.
Qed.
Lemma denotes_unique : forall x h h', denotes x h -> denotes x h' -> h = h'.
Proof. intros x h h' A B. apply to_frame in A, B. congruence. Qed.

Lemma GetRot_denotes : forall p m, rotation_matrix m -> regular_log m -> denotes (three p ++ three (GetRot m)) (F m p).
Proof.
  intros p m RM REG. pose proof kdl_eps_pos. destruct REG as [O|(S1 & S2 & S3)].
  - destruct (GetRot_generic m RM O) as (a & t & E & U & T & R). exists a, t. rewrite E. repeat split; auto. right. lra.
  - assert (D : {m = mid} + {m <> mid}).
    { destruct m as [x00 x01 x02 x10 x11 x12 x20 x21 x22]. unfold mid.
      destruct (Req_EM_T x00 1); [|right; congruence]. destruct (Req_EM_T x01 0); [|right; congruence].
      destruct (Req_EM_T x02 0); [|right; congruence]. destruct (Req_EM_T x10 0); [|right; congruence].
      destruct (Req_EM_T x11 1); [|right; congruence]. destruct (Req_EM_T x12 0); [|right; congruence].
      destruct (Req_EM_T x20 0); [|right; congruence]. destruct (Req_EM_T x21 0); [|right; congruence].
      destruct (Req_EM_T x22 1); [left|right; congruence]. subst. reflexivity. }
    destruct D as [->|D].
    + exists (V 1 0 0), 0. rewrite GetRot_id, Rot2_0. split; [apply unit_ex|]. split; [auto|]. split; [|reflexivity].
      unfold three, vzero; cbn. repeat (apply f_equal2; [ring|]). reflexivity.
    + destruct (GetRot_half m RM S1 S2 S3 D) as (a & E & U & R). exists a, PI. rewrite E. split; [auto|]. split; [|split; [reflexivity|auto]].
      right. pose proof PI2_1. unfold kdl_eps. lra.
Qed.

(** YARP's logarithm *)
Lemma off_sk : forall m, off_log m -> 2 * kdl_eps <= norm (sk m).
Proof.
  intros m O. destruct (comp_le_norm (sk m)) as (X & Y & Z). unfold sk in X, Y, Z at 1. cbn [vx vy vz] in X, Y, Z.
  destruct O as [O|[O|O]].
  - rewrite Rabs_minus_sym in O. unfold sk in *. lra.
  - unfold sk in *. lra.
  - rewrite Rabs_minus_sym in O. unfold sk in *. lra.
Qed.
Lemma matrix_denotes : forall svd h, svd_ok svd -> rigid h -> regular_log (fM h) -> denotes (matrixToVector svd h) h.
Proof.
  intros svd [m p] SV RM REG. unfold rigid in RM. cbn [fM] in *. pose proof kdl_eps_pos. pose proof nano_pos as [N1 N2].
  unfold matrixToVector, dcm2axis. cbn [fM fp].
  change (V (m21 m - m12 m) (m02 m - m20 m) (m10 m - m01 m)) with (sk m).
  change (m00 m + m11 m + m22 m) with (tr m). destruct REG as [O|(S1 & S2 & S3)].
  - apply off_sk in O. destruct (Rltb (norm (sk m)) (/ 1000000000)) eqn:L; [apply Rltb_true in L; lra|].
    pose proof (rebuild m RM ltac:(lra)) as R.
    exists (vscale (/ norm (sk m)) (sk m)), (atan2 (norm (sk m) / 2) ((tr m - 1) / 2)).
    assert (U : unit (vscale (/ norm (sk m)) (sk m))).
    { unfold unit. rewrite dot_scale_l, dot_scale_r, <- norm_sqr. field. lra. }
    split; [exact U|]. split; [|split; [reflexivity|cbn; symmetry; exact R]].
    right. set (th := atan2 (norm (sk m) / 2) ((tr m - 1) / 2)) in *.
    pose proof (atan2_bound (norm (sk m) / 2) ((tr m - 1) / 2)) as B. fold th in B.
    assert (ST : 0 < sin th).
    { destruct (atan2_polar (norm (sk m) / 2) ((tr m - 1) / 2)) as [_ P2]. fold th in P2.
      pose proof (sqrt_pos ((tr m - 1) / 2 * ((tr m - 1) / 2) + norm (sk m) / 2 * (norm (sk m) / 2))) as SP.
      destruct (Rle_or_lt (sin th) 0) as [L0|]; [|assumption]. exfalso.
      assert (sqrt ((tr m - 1) / 2 * ((tr m - 1) / 2) + norm (sk m) / 2 * (norm (sk m) / 2)) * sin th <= 0) by nra. lra. }
    assert (TP : 0 < th). { destruct (Rle_or_lt th 0) as [L0|]; [|assumption]. exfalso. pose proof (sin_le_0 (th + 2 * PI)) as SL.
      rewrite sin_plus, cos_2PI, sin_2PI in SL. pose proof PI_RGT_0. assert (sin th * 1 + cos th * 0 <= 0) by (apply SL; lra). lra. }
    assert (S2 : sin th = norm (sk m) / 2).
    { pose proof (polar1 (norm (sk m) / 2) ((tr m - 1) / 2)) as P. destruct P as [_ P]; [|exact P].
      pose proof (sk_norm m RM) as SN. pose proof (norm_sqr (sk m)) as NS. rewrite SN in NS.
      replace (norm (sk m) / 2 * (norm (sk m) / 2)) with (norm (sk m) * norm (sk m) / 4) by field. rewrite NS. field. }
    pose proof (sin_lt_x th TP). lra.
  - assert (K : sk m = vzero) by (unfold sk, vzero; f_equal; lra).
    assert (N0 : norm (sk m) = 0) by (rewrite K; unfold norm; rewrite dot_zero_l; apply sqrt_0).
    rewrite N0. destruct (Rltb 0 (/ 1000000000)) eqn:L; [|apply Rltb_false in L; lra].
    destruct (SV m) as [U FX]. assert (TM : mT m = m) by (apply mat_eq; cbn; congruence). specialize (FX RM TM).
    rewrite (unit_norm _ U), Rinv_1.
    pose proof (sk_norm m RM) as SN. rewrite K, dot_zero_l in SN.
    assert (TR : tr m = 3 \/ tr m = -1) by (symmetry in SN; apply Rmult_integral in SN; destruct SN; [right|left]; lra).
    exists (svd m), (atan2 (0 / 2) ((tr m - 1) / 2)). split; [exact U|].
    destruct TR as [TR|TR]; rewrite TR.
    + replace (atan2 (0 / 2) ((3 - 1) / 2)) with 0.
      2:{ symmetry. replace (0 / 2) with (1 * sin 0) by (rewrite sin_0; field). replace ((3 - 1) / 2) with (1 * cos 0) by (rewrite cos_0; field).
          apply atan2_unique; [lra|]. pose proof PI_RGT_0. lra. }
      split; [auto|]. split; [unfold three, vzero; cbn; repeat (apply f_equal2; [ring|]); reflexivity|]. rewrite Rot2_0.
      destruct (rows_cols m RM) as [(A1 & A2 & A3 & A4 & A5 & A6) _]. unfold tr in TR. cbn [fM].
      assert (m00 m = 1 /\ m11 m = 1 /\ m22 m = 1).
      { assert (LE : forall x y z, x * x + y * y + z * z = 1 -> x <= 1) by (intros; nra).
        pose proof (LE (m00 m) (m01 m) (m02 m) ltac:(lra)). pose proof (LE (m11 m) (m10 m) (m12 m) ltac:(lra)). pose proof (LE (m22 m) (m20 m) (m21 m) ltac:(lra)). lra. }
      destruct H0 as (E0 & E1 & E2). rewrite E0, E1, E2 in *.
      assert (m01 m = 0 /\ m02 m = 0 /\ m12 m = 0) as (F0 & F1 & F2) by (repeat split; [apply (sumsq0 _ (m02 m))|apply (sumsq0 _ (m01 m))|apply (sumsq0 _ (m10 m))]; lra).
      apply mat_eq; cbn; congruence.
    + replace (atan2 (0 / 2) ((-1 - 1) / 2)) with PI.
      2:{ symmetry. replace (0 / 2) with (1 * sin PI) by (rewrite sin_PI; field). replace ((-1 - 1) / 2) with (1 * cos PI) by (rewrite cos_PI; field).
          apply atan2_unique; [lra|]. pose proof PI_RGT_0. lra. }
      split; [right; pose proof PI2_1; unfold kdl_eps; lra|]. split; [unfold three, vzero; cbn; repeat (apply f_equal2; [ring|]); reflexivity|]. cbn [fM].
      (* a symmetric rotation of trace -1 with fixed direction a is 2 a a^T - I *)
      assert (MN : m <> mid) by (intros ->; unfold tr in TR; cbn in TR; lra).
      destruct (GetRot_half m RM S1 S2 S3 MN) as (b & _ & UB & RB). rewrite <- RB in *.
      rewrite Rot2_mv, cos_PI, sin_PI in FX.
      set (a := svd (Rot2 b PI)) in *.
      assert (AB : a = vscale (dot b a) b).
      { assert (AX : vx a = dot b a * vx b /\ vy a = dot b a * vy b /\ vz a = dot b a * vz b).
        { apply (f_equal vx) in FX as X. apply (f_equal vy) in FX as Y. apply (f_equal vz) in FX as Z. cbn in X, Y, Z. repeat split; lra. }
        destruct AX as (X & Y & Z). apply vec_eq; cbn; auto. }
      assert (Q : dot b a * dot b a = 1). { unfold unit in U. rewrite AB in U at 1. rewrite dot_scale_l in U. exact U. }
      rewrite AB. assert (K1 : dot b a = 1 \/ dot b a = -1) by (assert (Z : (dot b a - 1) * (dot b a + 1) = 0) by lra; apply Rmult_integral in Z; destruct Z; [left|right]; lra).
      unfold Rot2. rewrite cos_PI, sin_PI. destruct K1 as [-> | ->]; apply mat_eq; cbn; ring.
Qed.

(** ** The arm *)
Lemma rad_deg : forall x, degToRad x = rad x.
Proof. intros. unfold degToRad, rad. field. Qed.
Lemma rad_of_deg : forall x, rad (radToDeg x) = x.
Proof. intros. unfold rad, radToDeg. field. apply PI_neq0. Qed.
Lemma rad_add : forall x y, rad (x + y) = rad x + rad y.
Proof. intros. unfold rad. field. Qed.
Lemma RotY_add : forall a b, mm (RotY a) (RotY b) = RotY (a + b).
Proof. intros. apply mat_eq; cbn; rewrite ?sin_plus, ?cos_plus; ring. Qed.
Lemma arm_step : forall a b l m P Q, fmul (turn (RotY a)) (fmul (up l) (F (mm (RotY b) m) (V P 0 Q))) =
  F (mm (RotY (a + b)) m) (V (cos a * P + sin a * (Q + l)) 0 (cos a * (Q + l) - sin a * P)).
Proof.
  intros. unfold turn, up, fmul. cbn [fM fp]. rewrite mm_id_l, <- mm_assoc, RotY_add. f_equal. apply vec_eq; cbn; ring.
Qed.
Lemma arm_form : forall a0 a1 a2 a3 q1 q2 q3 q4 q5,
  let pr := a1 * sin q2 + a2 * sin (q2 + q3) + a3 * sin (q2 + q3 + q4) in
  let ph := a1 * cos q2 + a2 * cos (q2 + q3) + a3 * cos (q2 + q3 + q4) in
  arm a0 a1 a2 a3 q1 q2 q3 q4 q5 = F (EulerZYZ q1 (q2 + q3 + q4) q5) (V (pr * cos q1) (pr * sin q1) (ph + a0)).
Proof.
  intros. unfold arm.
  replace (fmul (turn (RotY q4)) (fmul (up a3) (turn (RotZ q5)))) with (F (mm (RotY q4) (RotZ q5)) (V (a3 * sin q4) 0 (a3 * cos q4))).
  2:{ unfold turn, up, fmul. cbn [fM fp]. rewrite mm_id_l. f_equal. apply vec_eq; cbn; ring. }
  rewrite !arm_step. unfold turn, up, fmul. cbn [fM fp]. rewrite mm_id_l. unfold EulerZYZ. f_equal; [f_equal; f_equal; f_equal; ring|].
  unfold pr, ph. replace (sin (q2 + q3 + q4)) with (sin (q2 + (q3 + q4))) by (f_equal; ring). replace (cos (q2 + q3 + q4)) with (cos (q2 + (q3 + q4))) by (f_equal; ring).
  rewrite !(sin_plus q2), !(cos_plus q2), !(sin_plus q3), !(cos_plus q3). apply vec_eq; cbn; ring.
Qed.
Lemma arm_rigid : forall a0 a1 a2 a3 q1 q2 q3 q4 q5, rigid (arm a0 a1 a2 a3 q1 q2 q3 q4 q5).
Proof. intros. rewrite arm_form. unfold rigid. cbn [fM]. apply ZYZ_rot. Qed.

(** ** Forward kinematics *)
Definition raw (s : asibot) (q1 q2 q3 q4 q5 : R) : frame :=
  let p := fp (flange s [q1; q2; q3; q4; q5]) in
  F (EulerZYZ (atan2 (vy p) (vx p)) (rad q2 + rad q3 + rad q4) (rad q5)) p.
Lemma encode_yz : forall a b c d e, exists m, encodePose 0 0 CARTESIAN EULER_YZ DEGREES (fun _ => [a; b; c; d; e]) = Some (true, m) /\
  m O = [a; b; c] ++ three (GetRot (EulerZYZ (atan2 b a) (rad d) (rad e))).
Proof.
  intros. destruct (runs_some _ _ _ _ (encode_run (fun _ => [a; b; c; d; e]) 0 0 CARTESIAN EULER_YZ DEGREES eq_refl ltac:(cbn; lia))) as (x & m & E & -> & E2 & _).
  exists m. split; [exact E|]. rewrite E2. unfold enc_out, enc_vec, degToRadHelper. cbn [nth Nat.add offset pos_in]. rewrite !rad_deg. reflexivity.
Qed.
Lemma fwd_raw : forall svd s q1 q2 q3 q4 q5, let h := raw s q1 q2 q3 q4 q5 in
  fwdKin svd s [q1; q2; q3; q4; q5] =
  (if hasFrame s then option_map (fun g => matrixToVector svd (fmul g (frameTcp s))) (vectorToMatrix (three (fp h) ++ three (GetRot (fM h))))
   else Some (three (fp h) ++ three (GetRot (fM h)))).
Proof.
  intros. cbv beta iota zeta delta [fwdKin].
  set (prP := A1 s * sin (degToRad q2) + A2 s * sin (degToRad q2 + degToRad q3) + A3 s * sin (degToRad q2 + degToRad q3 + degToRad q4)).
  set (phP := A1 s * cos (degToRad q2) + A2 s * cos (degToRad q2 + degToRad q3) + A3 s * cos (degToRad q2 + degToRad q3 + degToRad q4)).
  destruct (encode_yz (prP * cos (degToRad q1)) (prP * sin (degToRad q1)) (phP + A0 s) (q2 + q3 + q4) q5) as (m & E & EM).
  rewrite E.
  assert (H : m O = three (fp h) ++ three (GetRot (fM h))).
  { rewrite EM. unfold h, raw, flange. rewrite arm_form. cbn [fp fM vx vy vz three]. rewrite !rad_add. unfold prP, phP. rewrite !rad_deg. reflexivity. }
  rewrite H. destruct (hasFrame s); [|reflexivity]. destruct (vectorToMatrix _); reflexivity.
Qed.
Lemma raw_flange : forall s q1 q2 q3 q4 q5, 0 < ahead s [q1; q2; q3; q4; q5] -> raw s q1 q2 q3 q4 q5 = flange s [q1; q2; q3; q4; q5].
Proof.
  intros s q1 q2 q3 q4 q5 A. unfold raw, flange. rewrite arm_form. cbn [fp vx vy]. f_equal. cbn [ahead] in A.
  set (pr := A1 s * sin (rad q2) + A2 s * sin (rad q2 + rad q3) + A3 s * sin (rad q2 + rad q3 + rad q4)) in *.
  destruct (polar_c (pr * sin (rad q1)) (pr * cos (rad q1)) pr A) as [C S1].
  { replace (pr * sin (rad q1) * (pr * sin (rad q1)) + pr * cos (rad q1) * (pr * cos (rad q1))) with (pr * pr * ((sin (rad q1))² + (cos (rad q1))²)) by (unfold Rsqr; ring).
    rewrite sin2_cos2. ring. }
  unfold EulerZYZ. f_equal. unfold RotZ. rewrite C, S1. f_equal; field; lra.
Qed.
Lemma raw_rigid : forall s q1 q2 q3 q4 q5, rigid (raw s q1 q2 q3 q4 q5).
Proof. intros. apply ZYZ_rot. Qed.
Lemma five : forall (q : list R), length q = 5%nat -> exists q1 q2 q3 q4 q5, q = [q1; q2; q3; q4; q5].
Proof. intros q L. do 6 (destruct q as [|? q]; try discriminate L). repeat eexists. Qed.

Theorem forward_position : forall svd s q, length q = 5%nat -> hasFrame s = false ->
  exists x, fwdKin svd s q = Some x /\ length x = 6%nat /\ firstn 3 x = three (fp (flange s q)).
Proof.
  intros svd s q L HF. destruct (five q L) as (q1 & q2 & q3 & q4 & q5 & ->). rewrite fwd_raw, HF. eexists. repeat split.
Qed.
Theorem forward_pose : forall svd s q, length q = 5%nat -> svd_ok svd -> 0 < ahead s q -> rigid (tool s) ->
  regular_log (fM (flange s q)) -> regular_log (fM (fmul (flange s q) (tool s))) ->
  exists x, fwdKin svd s q = Some x /\ denotes x (fmul (flange s q) (tool s)).
Proof.
  intros svd s q L SV A RT R1 R2. destruct (five q L) as (q1 & q2 & q3 & q4 & q5 & ->). rewrite fwd_raw.
  pose proof (raw_flange s q1 q2 q3 q4 q5 A) as E. rewrite E.
  assert (RF : rigid (flange s [q1; q2; q3; q4; q5])) by apply arm_rigid.
  pose proof (GetRot_denotes (fp (flange s [q1; q2; q3; q4; q5])) _ RF R1) as D.
  assert (DE : F (fM (flange s [q1; q2; q3; q4; q5])) (fp (flange s [q1; q2; q3; q4; q5])) = flange s [q1; q2; q3; q4; q5]) by (destruct (flange s _); reflexivity).
  rewrite DE in D. unfold tool in *. destruct (hasFrame s).
  - rewrite (to_matrix _ _ D). eexists. split; [reflexivity|]. apply matrix_denotes; auto. apply rot_mm; auto.
  - eexists. split; [reflexivity|]. rewrite fmul_id_r. exact D.
Qed.
