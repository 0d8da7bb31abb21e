(** Algebra of the KDL model: vectors, rotations, rigid motions. *)
From Coq Require Import Reals Lra List Bool Psatz.
From Verif Require Import Kdl.
Import ListNotations.
Open Scope R_scope.

Ltac vunf := unfold vadd, vsub, vneg, vscale, cross, dot, mv, mm, mT, msub, mid, vzero,
  fmul, fapp, finv, ftrans, fid in *; cbn [vx vy vz m00 m01 m02 m10 m11 m12 m20 m21 m22 fM fp] in *.

Lemma vec_eq : forall a b, vx a = vx b -> vy a = vy b -> vz a = vz b -> a = b.
Proof. intros [? ? ?] [? ? ?]; cbn; intros; subst; reflexivity. Qed.

Lemma mat_eq : forall a b, m00 a = m00 b -> m01 a = m01 b -> m02 a = m02 b ->
  m10 a = m10 b -> m11 a = m11 b -> m12 a = m12 b ->
  m20 a = m20 b -> m21 a = m21 b -> m22 a = m22 b -> a = b.
Proof. intros [] []; cbn; intros; subst; reflexivity. Qed.

Lemma frame_eq : forall a b, fM a = fM b -> fp a = fp b -> a = b.
Proof. intros [] []; cbn; intros; subst; reflexivity. Qed.

Ltac vring := intros; vunf; (apply vec_eq || idtac); cbn [vx vy vz]; ring.
(** like vring, but matrix products and cross products stay opaque *)
Ltac vlin := intros; unfold vadd, vsub, vneg, vscale, vzero; apply vec_eq; cbn [vx vy vz]; ring.
Ltac mring := intros; vunf; apply mat_eq; cbn; ring.

(** ** Matrices *)
Lemma mm_assoc : forall a b c, mm (mm a b) c = mm a (mm b c).
Proof. mring. Qed.
Lemma mm_id_l : forall a, mm mid a = a.
Proof. intros; apply mat_eq; vunf; cbn; ring. Qed.
Lemma mm_id_r : forall a, mm a mid = a.
Proof. intros; apply mat_eq; vunf; cbn; ring. Qed.
Lemma mT_mm : forall a b, mT (mm a b) = mm (mT b) (mT a).
Proof. mring. Qed.
Lemma mT_mT : forall a, mT (mT a) = a.
Proof. intros []; reflexivity. Qed.
Lemma mT_id : mT mid = mid.
Proof. reflexivity. Qed.
Lemma mv_mm : forall a b v, mv (mm a b) v = mv a (mv b v).
Proof. vring. Qed.
Lemma mv_id : forall v, mv mid v = v.
Proof. intros; apply vec_eq; vunf; ring. Qed.
Lemma mv_add : forall a u v, mv a (vadd u v) = vadd (mv a u) (mv a v).
Proof. vring. Qed.
Lemma mv_sub : forall a u v, mv a (vsub u v) = vsub (mv a u) (mv a v).
Proof. vring. Qed.
Lemma mv_scale : forall a k v, mv a (vscale k v) = vscale k (mv a v).
Proof. vring. Qed.
Lemma mv_neg : forall a v, mv a (vneg v) = vneg (mv a v).
Proof. vring. Qed.
Lemma mv_zero : forall a, mv a vzero = vzero.
Proof. vring. Qed.
Lemma mv_msub : forall a b v, mv (msub a b) v = vsub (mv a v) (mv b v).
Proof. vring. Qed.
Lemma det_mm : forall a b, det (mm a b) = det a * det b.
Proof. intros [] []; unfold det, mm; cbn; ring. Qed.
Lemma det_mT : forall a, det (mT a) = det a.
Proof. intros []; unfold det, mT; cbn; ring. Qed.
Lemma det_id : det mid = 1.
Proof. unfold det; cbn; ring. Qed.

Lemma mat_ext_mv : forall a b, (forall v, mv a v = mv b v) -> a = b.
Proof.
  intros [] [] H.
  pose proof (H (V 1 0 0)) as H1. pose proof (H (V 0 1 0)) as H2. pose proof (H (V 0 0 1)) as H3.
  vunf. inversion H1; inversion H2; inversion H3. apply mat_eq; cbn; lra.
Qed.

Definition adj (a : mat) : mat :=
  M (m11 a * m22 a - m12 a * m21 a) (m02 a * m21 a - m01 a * m22 a) (m01 a * m12 a - m02 a * m11 a)
    (m12 a * m20 a - m10 a * m22 a) (m00 a * m22 a - m02 a * m20 a) (m02 a * m10 a - m00 a * m12 a)
    (m10 a * m21 a - m11 a * m20 a) (m01 a * m20 a - m00 a * m21 a) (m00 a * m11 a - m01 a * m10 a).

Lemma adj_mul : forall a, det a = 1 -> mm (adj a) a = mid.
Proof. intros [] H; unfold det in H; cbn in H. apply mat_eq; vunf; cbn; try ring; lra. Qed.

Lemma rot_adj : forall r, rotation_matrix r -> mT r = adj r.
Proof.
  intros r [H1 H2]. pose proof (adj_mul r H2) as H3.
  rewrite <- (mm_id_l (mT r)), <- H3, mm_assoc, H1, mm_id_r. reflexivity.
Qed.

Lemma rot_TM : forall r, rotation_matrix r -> mm (mT r) r = mid.
Proof. intros r H. rewrite (rot_adj r H). apply adj_mul, H. Qed.
Lemma rot_MT : forall r, rotation_matrix r -> mm r (mT r) = mid.
Proof. intros r [H _]; exact H. Qed.

Lemma rot_id : rotation_matrix mid.
Proof. split; [apply mm_id_l | apply det_id]. Qed.
Lemma rot_mm : forall a b, rotation_matrix a -> rotation_matrix b -> rotation_matrix (mm a b).
Proof.
  intros a b [A1 A2] [B1 B2]; split.
  - rewrite mT_mm, mm_assoc, <- (mm_assoc b), B1, mm_id_l; exact A1.
  - rewrite det_mm, A2, B2; ring.
Qed.
Lemma rot_mT : forall a, rotation_matrix a -> rotation_matrix (mT a).
Proof. intros a H; split; [rewrite mT_mT; apply rot_TM, H | rewrite det_mT; apply H]. Qed.

Lemma mv_mT_l : forall r v, rotation_matrix r -> mv (mT r) (mv r v) = v.
Proof. intros; rewrite <- mv_mm, rot_TM, mv_id; auto. Qed.
Lemma mv_mT_r : forall r v, rotation_matrix r -> mv r (mv (mT r) v) = v.
Proof. intros; rewrite <- mv_mm, rot_MT, mv_id; auto. Qed.

Lemma dot_mT : forall r u v, dot u (mv r v) = dot (mv (mT r) u) v.
Proof. vring. Qed.
Lemma dot_rot : forall r u v, rotation_matrix r -> dot (mv r u) (mv r v) = dot u v.
Proof. intros; rewrite dot_mT, mv_mT_l; auto. Qed.

Lemma cross_rot : forall r u v, rotation_matrix r -> mv r (cross u v) = cross (mv r u) (mv r v).
Proof.
  intros r u v H. pose proof (rot_adj r H) as A.
  rewrite <- (mT_mT r) at 1. rewrite A. destruct r, u, v; apply vec_eq; vunf; cbn; ring.
Qed.

(** ** Vectors *)
Lemma dot_comm : forall u v, dot u v = dot v u. Proof. vring. Qed.
Lemma dot_add_l : forall u v w, dot (vadd u v) w = dot u w + dot v w. Proof. vring. Qed.
Lemma dot_add_r : forall u v w, dot w (vadd u v) = dot w u + dot w v. Proof. vring. Qed.
Lemma dot_sub_l : forall u v w, dot (vsub u v) w = dot u w - dot v w. Proof. vring. Qed.
Lemma dot_sub_r : forall u v w, dot w (vsub u v) = dot w u - dot w v. Proof. vring. Qed.
Lemma dot_scale_l : forall k u w, dot (vscale k u) w = k * dot u w. Proof. vring. Qed.
Lemma dot_scale_r : forall k u w, dot w (vscale k u) = k * dot w u. Proof. vring. Qed.
Lemma dot_neg_l : forall u w, dot (vneg u) w = - dot u w. Proof. vring. Qed.
Lemma dot_neg_r : forall u w, dot w (vneg u) = - dot w u. Proof. vring. Qed.
Lemma dot_zero_l : forall u, dot vzero u = 0. Proof. vring. Qed.
Lemma dot_zero_r : forall u, dot u vzero = 0. Proof. vring. Qed.
Lemma dot_cross_l : forall u v, dot u (cross u v) = 0. Proof. vring. Qed.
Lemma dot_cross_r : forall u v, dot v (cross u v) = 0. Proof. vring. Qed.
Lemma cross_anti : forall u v, cross u v = vneg (cross v u). Proof. vring. Qed.
Lemma cross_self : forall u, cross u u = vzero. Proof. vring. Qed.
Lemma cross_cross_r : forall a b c, cross a (cross b c) = vsub (vscale (dot a c) b) (vscale (dot a b) c). Proof. vring. Qed.
Lemma cross_cross_l : forall a b c, cross (cross a b) c = vsub (vscale (dot a c) b) (vscale (dot b c) a). Proof. vring. Qed.
Lemma lagrange : forall a b, dot (cross a b) (cross a b) = dot a a * dot b b - dot a b * dot a b. Proof. vring. Qed.
Lemma cross_add_l : forall u v w, cross (vadd u v) w = vadd (cross u w) (cross v w). Proof. vring. Qed.
Lemma cross_add_r : forall u v w, cross w (vadd u v) = vadd (cross w u) (cross w v). Proof. vring. Qed.
Lemma cross_scale_l : forall k u v, cross (vscale k u) v = vscale k (cross u v). Proof. vring. Qed.
Lemma cross_scale_r : forall k u v, cross u (vscale k v) = vscale k (cross u v). Proof. vring. Qed.
Lemma vsub_diag : forall u, vsub u u = vzero. Proof. vring. Qed.
Lemma vadd_comm : forall u v, vadd u v = vadd v u. Proof. vring. Qed.
Lemma vadd_assoc : forall u v w, vadd (vadd u v) w = vadd u (vadd v w). Proof. vring. Qed.
Lemma vadd_zero_l : forall u, vadd vzero u = u. Proof. intros []; vring. Qed.
Lemma vadd_zero_r : forall u, vadd u vzero = u. Proof. intros []; vring. Qed.
Lemma vscale_1 : forall u, vscale 1 u = u. Proof. intros []; vring. Qed.
Lemma vscale_vscale : forall a b u, vscale a (vscale b u) = vscale (a * b) u. Proof. vring. Qed.

Lemma dot_self_nonneg : forall u, 0 <= dot u u.
Proof. intros; vunf; nra. Qed.
Lemma dot_self_zero : forall u, dot u u = 0 -> u = vzero.
Proof. intros [a b c]; vunf; intro H; apply vec_eq; cbn; nra. Qed.
Lemma norm_nonneg : forall u, 0 <= norm u.
Proof. intros; apply sqrt_pos. Qed.
Lemma norm_sqr : forall u, norm u * norm u = dot u u.
Proof. intros; apply sqrt_sqrt, dot_self_nonneg. Qed.
Lemma norm_zero : forall u, norm u = 0 -> u = vzero.
Proof. intros u H; apply dot_self_zero; rewrite <- norm_sqr, H; ring. Qed.
Lemma norm_eq_iff : forall u v, norm u = norm v <-> dot u u = dot v v.
Proof.
  intros; split; intro H.
  - rewrite <- !norm_sqr, H; reflexivity.
  - unfold norm; rewrite H; reflexivity.
Qed.
Lemma norm_scale : forall k u, norm (vscale k u) = Rabs k * norm u.
Proof.
  intros; unfold norm. rewrite dot_scale_l, dot_scale_r, <- Rmult_assoc.
  rewrite sqrt_mult; [| nra | apply dot_self_nonneg]. f_equal.
  change (k * k) with (Rsqr k). apply sqrt_Rsqr_abs.
Qed.
Lemma norm_rot : forall r u, rotation_matrix r -> norm (mv r u) = norm u.
Proof. intros; apply norm_eq_iff, dot_rot; auto. Qed.
Lemma unit_norm : forall u, unit u -> norm u = 1.
Proof. intros u H; unfold norm; rewrite H; apply sqrt_1. Qed.

Lemma kdl_eps_pos : 0 < kdl_eps.
Proof. unfold kdl_eps; lra. Qed.

Lemma Rltb_true : forall x y, Rltb x y = true <-> x < y.
Proof. intros; unfold Rltb; destruct (Rlt_dec x y); split; intros; auto; discriminate. Qed.
Lemma Rltb_false : forall x y, Rltb x y = false <-> y <= x.
Proof. intros; unfold Rltb; destruct (Rlt_dec x y); split; intros; auto; try discriminate; lra. Qed.
Lemma Rleb_true : forall x y, Rleb x y = true <-> x <= y.
Proof. intros; unfold Rleb; destruct (Rle_dec x y); split; intros; auto; discriminate. Qed.
Lemma Rleb_false : forall x y, Rleb x y = false <-> y < x.
Proof. intros; unfold Rleb; destruct (Rle_dec x y); split; intros; auto; try discriminate; lra. Qed.
Lemma Reqb_true : forall x y, Reqb x y = true <-> x = y.
Proof. intros; unfold Reqb; destruct (Req_EM_T x y); split; intros; auto; discriminate. Qed.
Lemma Reqb_false : forall x y, Reqb x y = false <-> x <> y.
Proof. intros; unfold Reqb; destruct (Req_EM_T x y); split; intros; auto; try discriminate; contradiction. Qed.

Lemma Equal_true : forall a b, Equal a b = true <-> Rabs (a - b) < kdl_eps.
Proof.
  intros; unfold Equal; rewrite andb_true_iff, !Rltb_true; split.
  - intros [? ?]; apply Rabs_def1; lra.
  - intro H; apply Rabs_def2 in H; lra.
Qed.
Lemma Equal_false : forall a b, Equal a b = false <-> kdl_eps <= Rabs (a - b).
Proof.
  intros; destruct (Equal a b) eqn:E; split; intros; auto; try discriminate.
  - apply Equal_true in E; lra.
  - destruct (Rle_dec kdl_eps (Rabs (a - b))); auto.
    assert (Equal a b = true) by (apply Equal_true; lra). congruence.
Qed.
Lemma Equal_refl : forall a, Equal a a = true.
Proof. intros; apply Equal_true; rewrite Rminus_diag_eq, Rabs_R0; [apply kdl_eps_pos | auto]. Qed.
Lemma EqualV_true : forall a b, EqualV a b = true <->
  Rabs (vx a - vx b) < kdl_eps /\ Rabs (vy a - vy b) < kdl_eps /\ Rabs (vz a - vz b) < kdl_eps.
Proof. intros; unfold EqualV; rewrite !andb_true_iff, !Equal_true; tauto. Qed.
Lemma EqualV_refl : forall a, EqualV a a = true.
Proof. intros; unfold EqualV; rewrite !Equal_refl; reflexivity. Qed.

Lemma normalize_unit : forall a, unit (normalize a).
Proof.
  intros a; unfold normalize, unit. destruct (Rltb (norm a) kdl_eps) eqn:E.
  - vunf; ring.
  - apply Rltb_false in E. pose proof kdl_eps_pos.
    rewrite dot_scale_l, dot_scale_r, <- norm_sqr. field. lra.
Qed.
Lemma normalize_of_unit : forall a, unit a -> normalize a = a.
Proof.
  intros a H. unfold normalize. rewrite (unit_norm a H).
  replace (Rltb 1 kdl_eps) with false.
  - rewrite Rinv_1; apply vscale_1.
  - symmetry; apply Rltb_false; unfold kdl_eps; lra.
Qed.

(** ** Rodrigues *)
Lemma Rot2_mv : forall a t v, mv (Rot2 a t) v =
  vadd (vscale (cos t) v) (vadd (vscale (sin t) (cross a v)) (vscale ((1 - cos t) * dot a v) a)).
Proof. intros; unfold Rot2; vring. Qed.

Lemma cs1 : forall t, sin t * sin t + cos t * cos t = 1.
Proof. intro t; exact (sin2_cos2 t). Qed.

Lemma Rot2_zero : forall a, Rot2 a 0 = mid.
Proof. intros; unfold Rot2; rewrite cos_0, sin_0; apply mat_eq; cbn; ring. Qed.

Lemma Rot2_plus : forall a s t, unit a -> mm (Rot2 a s) (Rot2 a t) = Rot2 a (s + t).
Proof.
  intros a s t H. apply mat_ext_mv; intro v. rewrite mv_mm, !Rot2_mv, cos_plus, sin_plus.
  assert (H1 : cross a (cross a v) = vsub (vscale (dot a v) a) v).
  { rewrite cross_cross_r, H, vscale_1; reflexivity. }
  assert (H2 : dot a (vadd (vscale (cos t) v) (vadd (vscale (sin t) (cross a v)) (vscale ((1 - cos t) * dot a v) a)))
     = dot a v).
  { rewrite !dot_add_r, !dot_scale_r, H, dot_cross_l; ring. }
  rewrite H2, !cross_add_r, !cross_scale_r, H1, cross_self.
  apply vec_eq; vunf; ring.
Qed.

Lemma Rot2_neg : forall a t, Rot2 a (- t) = mT (Rot2 a t).
Proof. intros; unfold Rot2, mT; rewrite cos_neg, sin_neg; apply mat_eq; cbn; ring. Qed.

Lemma Rot2_opp_axis : forall a t, Rot2 (vneg a) t = Rot2 a (- t).
Proof. intros; unfold Rot2; rewrite cos_neg, sin_neg; apply mat_eq; vunf; cbn; ring. Qed.

Lemma Rot2_orth : forall a t, unit a -> mm (Rot2 a t) (mT (Rot2 a t)) = mid.
Proof.
  intros a t H. rewrite <- Rot2_neg, Rot2_plus by auto.
  rewrite Rplus_opp_r; apply Rot2_zero.
Qed.

Lemma Rot2_det : forall a t, unit a -> det (Rot2 a t) = 1.
Proof.
  intros [x y z] t H. unfold unit in H. vunf. unfold det, Rot2; cbn.
  pose proof (cs1 t) as C. set (c := cos t) in *. set (s := sin t) in *.
  transitivity (c*c*c + (1-c) * (c*c) * (x*x+y*y+z*z) + s*s*c*(x*x+y*y+z*z) + s*s*(1-c)*(x*x+y*y+z*z)*(x*x+y*y+z*z)).
  - ring.
  - rewrite H. replace (s * s) with (1 - c * c) by lra. ring.
Qed.

Lemma Rot2_rot : forall a t, unit a -> rotation_matrix (Rot2 a t).
Proof. intros; split; [apply Rot2_orth | apply Rot2_det]; auto. Qed.

Lemma Rot2_axis : forall a t, unit a -> mv (Rot2 a t) a = a.
Proof. intros a t H; rewrite Rot2_mv, cross_self, H; apply vec_eq; vunf; ring. Qed.

Lemma Rot2_conj : forall r a t, rotation_matrix r ->
  Rot2 (mv r a) t = mm r (mm (Rot2 a t) (mT r)).
Proof.
  intros r a t H. apply mat_ext_mv; intro v. rewrite !mv_mm, !Rot2_mv.
  rewrite !mv_add, !mv_scale, cross_rot, mv_mT_r by auto. f_equal. f_equal. f_equal. f_equal.
  rewrite (dot_mT (mT r)), mT_mT; reflexivity.
Qed.

Lemma RotX_Rot2 : forall t, RotX t = Rot2 (V 1 0 0) t.
Proof. intros; unfold RotX, Rot2; apply mat_eq; cbn; ring. Qed.
Lemma RotY_Rot2 : forall t, RotY t = Rot2 (V 0 1 0) t.
Proof. intros; unfold RotY, Rot2; apply mat_eq; cbn; ring. Qed.
Lemma RotZ_Rot2 : forall t, RotZ t = Rot2 (V 0 0 1) t.
Proof. intros; unfold RotZ, Rot2; apply mat_eq; cbn; ring. Qed.

Lemma unit_ex : unit (V 1 0 0). Proof. unfold unit; vunf; ring. Qed.
Lemma unit_ey : unit (V 0 1 0). Proof. unfold unit; vunf; ring. Qed.
Lemma unit_ez : unit (V 0 0 1). Proof. unfold unit; vunf; ring. Qed.
Lemma unit_rot : forall r a, rotation_matrix r -> unit a -> unit (mv r a).
Proof. intros; unfold unit; rewrite dot_rot; auto. Qed.
Lemma unit_neg : forall a, unit a -> unit (vneg a).
Proof. unfold unit; intros; rewrite dot_neg_l, dot_neg_r; lra. Qed.

(** ** Rigid motions *)
Lemma fmul_assoc : forall a b c, fmul (fmul a b) c = fmul a (fmul b c).
Proof. intros; apply frame_eq; unfold fmul; cbn; [apply mm_assoc | rewrite mv_mm, mv_add, vadd_assoc; reflexivity]. Qed.
Lemma fmul_id_l : forall a, fmul fid a = a.
Proof. intros; apply frame_eq; unfold fmul; cbn; [apply mm_id_l | rewrite mv_id; apply vadd_zero_r]. Qed.
Lemma fmul_id_r : forall a, fmul a fid = a.
Proof. intros; apply frame_eq; unfold fmul; cbn; [apply mm_id_r | rewrite mv_zero; apply vadd_zero_l]. Qed.
Lemma fapp_fmul : forall a b v, fapp (fmul a b) v = fapp a (fapp b v).
Proof. intros; unfold fapp, fmul; cbn; rewrite mv_mm, mv_add, vadd_assoc; reflexivity. Qed.
Lemma fapp_id : forall v, fapp fid v = v.
Proof. intros; unfold fapp, fid; cbn; rewrite mv_id; apply vadd_zero_r. Qed.
Lemma frame_ext : forall a b, (forall v, fapp a v = fapp b v) -> a = b.
Proof.
  intros [ma pa] [mb pb] H. unfold fapp in H; cbn in H.
  assert (P : pa = pb) by (specialize (H vzero); rewrite !mv_zero, !vadd_zero_l in H; exact H).
  subst pb. f_equal. apply mat_ext_mv; intro v. specialize (H v).
  injection H; intros. apply vec_eq; vunf; lra.
Qed.
Lemma fmul_inv_r : forall a, rigid a -> fmul a (finv a) = fid.
Proof.
  intros a H; apply frame_eq; unfold fmul, finv; cbn.
  - apply rot_MT, H.
  - rewrite mv_neg, mv_mT_r by apply H; vring.
Qed.
Lemma fmul_inv_l : forall a, rigid a -> fmul (finv a) a = fid.
Proof.
  intros a H; apply frame_eq; unfold fmul, finv; cbn.
  - apply rot_TM, H.
  - vring.
Qed.
Lemma rigid_id : rigid fid. Proof. apply rot_id. Qed.
Lemma rigid_mul : forall a b, rigid a -> rigid b -> rigid (fmul a b).
Proof. intros; apply rot_mm; auto. Qed.
Lemma rigid_inv : forall a, rigid a -> rigid (finv a).
Proof. intros; apply rot_mT; auto. Qed.
Lemma rigid_trans : forall v, rigid (ftrans v). Proof. intro; apply rot_id. Qed.
Lemma finv_fmul : forall a b, rigid a -> rigid b -> finv (fmul a b) = fmul (finv b) (finv a).
Proof.
  intros a b Ha Hb. rewrite <- (fmul_id_r (fmul (finv b) (finv a))), <- (fmul_inv_r (fmul a b)) by (apply rigid_mul; auto).
  rewrite <- !fmul_assoc, (fmul_assoc (finv b)), (fmul_inv_l a), fmul_id_r by auto.
  rewrite fmul_inv_l, fmul_id_l by auto. reflexivity.
Qed.
Lemma finv_inv : forall a, rigid a -> finv (finv a) = a.
Proof.
  intros a H. rewrite <- (fmul_id_r (finv (finv a))), <- (fmul_inv_l a) by auto.
  rewrite <- fmul_assoc, fmul_inv_l, fmul_id_l by (apply rigid_inv; auto). reflexivity.
Qed.
Lemma finv_id : finv fid = fid.
Proof. apply frame_eq; vunf; cbn; [reflexivity | apply vec_eq; cbn; ring]. Qed.
Lemma fmul_cancel_l : forall h a b, rigid h -> fmul h a = fmul h b -> a = b.
Proof.
  intros h a b H E. rewrite <- (fmul_id_l a), <- (fmul_id_l b), <- (fmul_inv_l h) by auto.
  rewrite !fmul_assoc, E; reflexivity.
Qed.
Lemma fapp_inv_l : forall h v, rigid h -> fapp (finv h) (fapp h v) = v.
Proof. intros; rewrite <- fapp_fmul, fmul_inv_l, fapp_id; auto. Qed.
Lemma fapp_inv_r : forall h v, rigid h -> fapp h (fapp (finv h) v) = v.
Proof. intros; rewrite <- fapp_fmul, fmul_inv_r, fapp_id; auto. Qed.
Lemma ftrans_mul : forall a b, fmul (ftrans a) (ftrans b) = ftrans (vadd a b).
Proof. intros; apply frame_eq; unfold fmul; cbn; [apply mm_id_l | rewrite mv_id; apply vadd_comm]. Qed.
Lemma finv_ftrans : forall a, finv (ftrans a) = ftrans (vneg a).
Proof. intros; apply frame_eq; unfold finv; cbn; [reflexivity | rewrite mT_id, mv_id; reflexivity]. Qed.
Lemma fapp_sub : forall h u v, vsub (fapp h u) (fapp h v) = mv (fM h) (vsub u v).
Proof. intros; unfold fapp; rewrite mv_sub; vring. Qed.
