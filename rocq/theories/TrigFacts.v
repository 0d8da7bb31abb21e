(** Facts about atan2 and rotations in the plane normal to an axis. *)
From Coq Require Import Reals Lra List Bool Psatz.
From Verif Require Import Kdl KdlFacts Trig.
Open Scope R_scope.

Lemma sqrt_split : forall x y, x <> 0 -> sqrt (x * x + y * y) = Rabs x * sqrt (1 + (y / x)²).
Proof.
  intros x y H. replace (x * x + y * y) with ((x * x) * (1 + (y / x)²)) by (unfold Rsqr; field; auto).
  rewrite sqrt_mult; [| nra | unfold Rsqr; nra]. f_equal. change (x * x) with (x²). apply sqrt_Rsqr_abs.
Qed.

Lemma sqrt_1z_pos : forall z, 0 < sqrt (1 + z²).
Proof. intro z; apply sqrt_lt_R0; unfold Rsqr; nra. Qed.

Lemma atan2_polar : forall y x,
  sqrt (x * x + y * y) * cos (atan2 y x) = x /\ sqrt (x * x + y * y) * sin (atan2 y x) = y.
Proof.
  intros y x. unfold atan2. destruct (Rltb 0 x) eqn:E1; [apply Rltb_true in E1 | apply Rltb_false in E1].
  - rewrite sqrt_split, Rabs_pos_eq, cos_atan, sin_atan by lra. pose proof (sqrt_1z_pos (y / x)).
    split; field; lra.
  - destruct (Rltb x 0) eqn:E2; [apply Rltb_true in E2 | apply Rltb_false in E2].
    + rewrite sqrt_split, Rabs_left by lra. pose proof (sqrt_1z_pos (y / x)).
      assert (C : cos (atan (y / x) + PI) = - cos (atan (y / x))) by apply neg_cos.
      assert (S : sin (atan (y / x) + PI) = - sin (atan (y / x))) by apply neg_sin.
      assert (C' : cos (atan (y / x) - PI) = - cos (atan (y / x)))
        by (rewrite cos_minus, cos_PI, sin_PI; ring).
      assert (S' : sin (atan (y / x) - PI) = - sin (atan (y / x)))
        by (rewrite sin_minus, cos_PI, sin_PI; ring).
      destruct (Rleb 0 y); rewrite ?C, ?S, ?C', ?S', cos_atan, sin_atan; split; field; lra.
    + assert (x = 0) by lra; subst x. replace (0 * 0 + y * y) with (y * y) by ring.
      change (y * y) with (y²). rewrite sqrt_Rsqr_abs.
      destruct (Rltb 0 y) eqn:E3; [apply Rltb_true in E3 | apply Rltb_false in E3].
      * rewrite cos_PI2, sin_PI2, Rabs_pos_eq by lra; split; lra.
      * destruct (Rltb y 0) eqn:E4; [apply Rltb_true in E4 | apply Rltb_false in E4].
        -- rewrite cos_neg, sin_neg, cos_PI2, sin_PI2, Rabs_left by lra; split; lra.
        -- assert (y = 0) by lra; subst y. rewrite Rabs_R0; split; ring.
Qed.

Lemma atan2_bound : forall y x, - PI < atan2 y x <= PI.
Proof.
  intros y x. unfold atan2. pose proof PI_RGT_0. pose proof (atan_bound (y / x)).
  destruct (Rltb 0 x) eqn:E1; [lra|]. apply Rltb_false in E1.
  destruct (Rltb x 0) eqn:E2; [apply Rltb_true in E2|].
  - destruct (Rleb 0 y) eqn:E3; [apply Rleb_true in E3 | apply Rleb_false in E3].
    + assert (atan (y / x) <= 0); [|lra].
      destruct (Req_dec y 0) as [->|]; [unfold Rdiv; rewrite Rmult_0_l, atan_0; lra|].
      left. rewrite <- atan_0. apply atan_increasing.
      unfold Rdiv. assert (/ x < 0) by (apply Rinv_lt_0_compat; auto). nra.
    + assert (0 < atan (y / x)); [|lra]. rewrite <- atan_0. apply atan_increasing.
      unfold Rdiv. assert (/ x < 0) by (apply Rinv_lt_0_compat; auto). nra.
  - destruct (Rltb 0 y); [lra|]. destruct (Rltb y 0); lra.
Qed.

(** angles in (-PI, PI] are determined by their sine and cosine *)
Lemma angle_unique : forall s t, - PI < s <= PI -> - PI < t <= PI -> cos s = cos t -> sin s = sin t -> s = t.
Proof.
  intros s t Hs Ht C S.
  assert (D : cos (s - t) = 1).
  { rewrite cos_minus, C, S. pose proof (cs1 t). lra. }
  destruct (Rtotal_order s t) as [L | [L | L]]; auto; exfalso.
  - assert (cos ((t - s) / 2) * cos ((t - s) / 2) = 1).
    { replace (s - t) with (- (2 * ((t - s) / 2))) in D by field. rewrite cos_neg, cos_2a_cos in D. lra. }
    assert (0 < sin ((t - s) / 2)) by (apply sin_gt_0; lra).
    pose proof (cs1 ((t - s) / 2)). nra.
  - assert (cos ((s - t) / 2) * cos ((s - t) / 2) = 1).
    { replace (s - t) with (2 * ((s - t) / 2)) in D by field. rewrite cos_2a_cos in D. lra. }
    assert (0 < sin ((s - t) / 2)) by (apply sin_gt_0; lra).
    pose proof (cs1 ((s - t) / 2)). nra.
Qed.

Lemma atan2_unique : forall r t, 0 < r -> - PI < t <= PI -> atan2 (r * sin t) (r * cos t) = t.
Proof.
  intros r t Hr Ht. pose proof (atan2_polar (r * sin t) (r * cos t)) as [C S].
  assert (Q : sqrt (r * cos t * (r * cos t) + r * sin t * (r * sin t)) = r).
  { replace (r * cos t * (r * cos t) + r * sin t * (r * sin t)) with (r * r)
      by (transitivity (r * r * (sin t * sin t + cos t * cos t)); [rewrite cs1 | ]; ring).
    apply sqrt_square; lra. }
  rewrite Q in *. apply angle_unique; auto using atan2_bound; nra.
Qed.

Lemma sin_abs_le : forall x, Rabs (sin x) <= Rabs x.
Proof.
  assert (P : forall x, 0 <= x -> Rabs (sin x) <= x).
  { intros x H. destruct (Req_dec x 0) as [->|]; [rewrite sin_0, Rabs_R0; lra|].
    pose proof (sin_lt_x x ltac:(lra)). destruct (Rle_dec 1 x).
    - pose proof (SIN_bound x). apply Rabs_le; lra.
    - rewrite Rabs_pos_eq; [lra|]. apply sin_ge_0; try lra. pose proof PI2_3_2; lra. }
  intro x. destruct (Rle_dec 0 x).
  - rewrite (Rabs_pos_eq x) by auto. apply P; auto.
  - rewrite (Rabs_left x) by lra. rewrite <- (Rabs_Ropp (sin x)), <- sin_neg. apply P; lra.
Qed.

Lemma one_minus_cos : forall d, 2 * (1 - cos d) <= d * d.
Proof.
  intro d. replace d with (2 * (d / 2)) at 1 by field. rewrite cos_2a_sin.
  pose proof (sin_abs_le (d / 2)) as H. apply Rsqr_le_abs_1 in H. unfold Rsqr in H. lra.
Qed.

(** ** Rotations in the plane normal to a unit axis *)
Lemma plane_cross : forall a u v, unit a -> dot a u = 0 -> dot a v = 0 ->
  cross u v = vscale (dot a (cross u v)) a.
Proof.
  intros a u v U Hu Hv.
  assert (Z : cross a (cross u v) = vzero).
  { rewrite cross_cross_r, Hu, Hv. vring. }
  pose proof (cross_cross_r a a (cross u v)) as G. rewrite Z, U, vscale_1 in G.
  assert (C0 : cross a vzero = vzero) by vring. rewrite C0 in G.
  injection G; intros; apply vec_eq; unfold vscale in *; cbn in *; lra.
Qed.

Lemma plane_norm : forall a u v, unit a -> dot a u = 0 -> dot a v = 0 ->
  dot u v * dot u v + dot a (cross u v) * dot a (cross u v) = dot u u * dot v v.
Proof.
  intros a u v U Hu Hv. pose proof (lagrange u v) as L.
  assert (W : dot (cross u v) (cross u v) = dot a (cross u v) * dot a (cross u v)).
  { rewrite (plane_cross a u v U Hu Hv) at 1. apply dot_scale_l. }
  lra.
Qed.

Lemma plane_decomp : forall a u v, unit a -> dot a u = 0 -> dot a v = 0 ->
  vscale (dot u u) v = vadd (vscale (dot u v) u) (vscale (dot a (cross u v)) (cross a u)).
Proof.
  intros a u v U Hu Hv. rewrite <- cross_scale_l, <- (plane_cross a u v U Hu Hv), cross_cross_l.
  rewrite (dot_comm v u). vlin.
Qed.

Lemma rot_to : forall a u v, unit a -> dot a u = 0 -> dot a v = 0 ->
  vscale (norm v) (mv (Rot2 a (atan2 (dot a (cross u v)) (dot u v))) u) = vscale (norm u) v.
Proof.
  intros a u v U Hu Hv.
  destruct (Req_dec (norm u) 0) as [Z|Z].
  { apply norm_zero in Z; subst u. rewrite mv_zero. unfold norm at 2. rewrite dot_zero_l, sqrt_0. vlin. }
  destruct (Req_dec (norm v) 0) as [Z'|Z'].
  { apply norm_zero in Z'; subst v. unfold norm at 1. rewrite dot_zero_l, sqrt_0. vlin. }
  pose proof (atan2_polar (dot a (cross u v)) (dot u v)) as [C S].
  rewrite (plane_norm a u v U Hu Hv), sqrt_mult in C, S by apply dot_self_nonneg.
  fold (norm u) in C, S. fold (norm v) in C, S.
  set (t := atan2 _ _) in *. rewrite Rot2_mv, Hu.
  pose proof (plane_decomp a u v U Hu Hv) as D. rewrite <- C, <- S in D.
  rewrite <- norm_sqr in D.
  assert (K : forall x y, norm u * x = norm u * y -> x = y) by (intros; apply Rmult_eq_reg_l with (norm u); auto).
  unfold vadd, vscale in *. cbn [vx vy vz] in *. injection D; intros Dz Dy Dx.
  apply vec_eq; cbn [vx vy vz]; apply K.
  - transitivity (norm u * norm u * vx v); [rewrite Dx; unfold cross; cbn [vx vy vz]|]; ring.
  - transitivity (norm u * norm u * vy v); [rewrite Dy; unfold cross; cbn [vx vy vz]|]; ring.
  - transitivity (norm u * norm u * vz v); [rewrite Dz; unfold cross; cbn [vx vy vz]|]; ring.
Qed.

Lemma rot_to_eq : forall a u v, unit a -> dot a u = 0 -> dot a v = 0 -> dot u u = dot v v ->
  mv (Rot2 a (atan2 (dot a (cross u v)) (dot u v))) u = v.
Proof.
  intros a u v U Hu Hv E. pose proof (rot_to a u v U Hu Hv) as R.
  apply norm_eq_iff in E. rewrite E in R.
  destruct (Req_dec (norm v) 0) as [Z|Z].
  - rewrite Z in E. apply norm_zero in E, Z. subst. apply mv_zero.
  - unfold vscale in R. injection R; intros. apply vec_eq; eapply Rmult_eq_reg_l; eauto.
Qed.

(** rotating by t then comparing: the angle of Rot2 a t u seen from u is t *)
Lemma rot_dot : forall a u t, dot a u = 0 -> dot u (mv (Rot2 a t) u) = dot u u * cos t.
Proof. intros; rewrite Rot2_mv, H, !dot_add_r, !dot_scale_r, dot_cross_r, (dot_comm u a), H; ring. Qed.
Lemma rot_det : forall a u t, unit a -> dot a u = 0 -> dot a (cross u (mv (Rot2 a t) u)) = dot u u * sin t.
Proof.
  intros a u t U H. rewrite Rot2_mv, H.
  replace (cross u (vadd (vscale (cos t) u) (vadd (vscale (sin t) (cross a u)) (vscale ((1 - cos t) * 0) a))))
    with (vscale (sin t) (cross u (cross a u))) by vring.
  rewrite dot_scale_r, cross_cross_r, dot_sub_r, !dot_scale_r, U, (dot_comm u a), H; ring.
Qed.
Lemma rot_perp : forall a u t, unit a -> dot a u = 0 -> dot a (mv (Rot2 a t) u) = 0.
Proof. intros; rewrite Rot2_mv, H0, !dot_add_r, !dot_scale_r, dot_cross_l, H0; ring. Qed.

(** chord bound *)
Lemma norm_le_sqr : forall u c, 0 <= c -> dot u u <= c * c -> norm u <= c.
Proof. intros u c H L. unfold norm. rewrite <- (sqrt_square c) by auto. apply sqrt_le_1_alt; auto. Qed.

Lemma chord : forall a d u, unit a -> dot (vsub (mv (Rot2 a d) u) u) (vsub (mv (Rot2 a d) u) u) <= (d * d) * dot u u.
Proof.
  intros a d u U.
  assert (E : dot (vsub (mv (Rot2 a d) u) u) (vsub (mv (Rot2 a d) u) u) = 2 * (1 - cos d) * (dot u u - dot a u * dot a u)).
  { rewrite !dot_sub_l, !dot_sub_r, dot_rot by (apply Rot2_rot; auto).
    rewrite (dot_comm (mv _ u) u), Rot2_mv, !dot_add_r, !dot_scale_r, dot_cross_r, (dot_comm u a). ring. }
  rewrite E. pose proof (one_minus_cos d). pose proof (COS_bound d).
  assert (0 <= dot u u - dot a u * dot a u).
  { pose proof (lagrange a u) as L. rewrite U in L. pose proof (dot_self_nonneg (cross a u)). lra. }
  pose proof (dot_self_nonneg u). assert (0 <= dot a u * dot a u) by nra. nra.
Qed.

Lemma chord2 : forall a s t u, unit a ->
  norm (vsub (mv (Rot2 a s) u) (mv (Rot2 a t) u)) <= Rabs (s - t) * norm u.
Proof.
  intros a s t u U. apply norm_le_sqr; [apply Rmult_le_pos; [apply Rabs_pos | apply norm_nonneg]|].
  replace (Rabs (s - t) * norm u * (Rabs (s - t) * norm u)) with (((s - t) * (s - t)) * dot u u).
  2:{ rewrite <- norm_sqr. transitivity ((Rabs (s - t) * Rabs (s - t)) * (norm u * norm u)); [|ring].
      f_equal. change (Rabs (s - t) * Rabs (s - t)) with ((Rabs (s - t))²). rewrite <- Rsqr_abs. reflexivity. }
  replace s with (t + (s - t)) at 1 2 by ring. rewrite <- Rot2_plus, mv_mm, <- mv_sub, dot_rot by (auto; apply Rot2_rot; auto).
  apply chord; auto.
Qed.

(** triangle inequality *)
Lemma cauchy_schwarz : forall u v, dot u v <= norm u * norm v.
Proof.
  intros u v. pose proof (lagrange u v). pose proof (dot_self_nonneg (cross u v)).
  destruct (Rle_dec (dot u v) 0).
  - pose proof (norm_nonneg u). pose proof (norm_nonneg v). nra.
  - apply Rsqr_incr_0_var; [|apply Rmult_le_pos; apply norm_nonneg]. unfold Rsqr.
    pose proof (norm_sqr u). pose proof (norm_sqr v). nra.
Qed.
Lemma norm_triangle : forall u v, norm (vadd u v) <= norm u + norm v.
Proof.
  intros. pose proof (norm_nonneg u). pose proof (norm_nonneg v).
  apply norm_le_sqr; [lra|]. rewrite !dot_add_l, !dot_add_r, (dot_comm v u), <- !norm_sqr.
  pose proof (cauchy_schwarz u v). lra.
Qed.
Lemma norm_triangle3 : forall x y z, norm (vsub x z) <= norm (vsub x y) + norm (vsub y z).
Proof. intros. replace (vsub x z) with (vadd (vsub x y) (vsub y z)) by (apply vec_eq; vunf; ring). apply norm_triangle. Qed.
Lemma norm_comps : forall u e, 0 <= e -> Rabs (vx u) <= e -> Rabs (vy u) <= e -> Rabs (vz u) <= e -> norm u <= 2 * e.
Proof.
  intros u e H X Y Z. apply norm_le_sqr; [lra|]. vunf.
  assert (Q : forall x, Rabs x <= e -> x * x <= e * e).
  { intros x A. change (x * x) with (x²). change (e * e) with (e²). apply Rsqr_le_abs_1. rewrite (Rabs_pos_eq e); auto. }
  apply Q in X, Y, Z. nra.
Qed.
