(** Proofs about the subproblems. *)
From Coq Require Import Reals Lra List Bool Psatz.
From Verif Require Import Kdl KdlFacts Screw ScrewFacts Trig TrigFacts Subproblems.
Import ListNotations.
Open Scope R_scope.

Lemma pow2_mv : forall a v, mv (vectorPow2 a) v = vscale (dot a v) a.
Proof. intros; unfold vectorPow2; vring. Qed.

Lemma perp_eq : forall a v, vsub v (mv (vectorPow2 a) v) = perp a v.
Proof. intros; rewrite pow2_mv; reflexivity. Qed.

Lemma perp_dot : forall a v, unit a -> dot a (perp a v) = 0.
Proof. intros a v U; unfold perp; rewrite dot_sub_r, dot_scale_r, U; ring. Qed.
Lemma perp_norm2 : forall a v, unit a -> dot (perp a v) (perp a v) = dot v v - dot a v * dot a v.
Proof. intros a v U; unfold perp. rewrite !dot_sub_l, !dot_sub_r, !dot_scale_l, !dot_scale_r, U, (dot_comm v a); ring. Qed.
Lemma perp_dot2 : forall a u v, unit a -> dot (perp a u) (perp a v) = dot u v - dot a u * dot a v.
Proof. intros a u v U; unfold perp. rewrite !dot_sub_l, !dot_sub_r, !dot_scale_l, !dot_scale_r, U, (dot_comm u a); ring. Qed.
Lemma perp_split : forall a v, v = vadd (vscale (dot a v) a) (perp a v).
Proof. intros a [x y z]; unfold perp; vlin. Qed.
Lemma perp_of_perp : forall a v, dot a v = 0 -> perp a v = v.
Proof. intros a [x y z] H; unfold perp; rewrite H; vlin. Qed.
Lemma perp_sub : forall a u v, perp a (vsub u v) = vsub (perp a u) (perp a v).
Proof. intros; unfold perp; rewrite dot_sub_r; vlin. Qed.
Lemma perp_add : forall a u v, perp a (vadd u v) = vadd (perp a u) (perp a v).
Proof. intros; unfold perp; rewrite dot_add_r; vlin. Qed.

Lemma rot_split : forall a t u, unit a -> mv (Rot2 a t) u = vadd (vscale (dot a u) a) (mv (Rot2 a t) (perp a u)).
Proof. intros a t u U. rewrite (perp_split a u) at 1. rewrite mv_add, mv_scale, Rot2_axis; auto. Qed.
Lemma rot_axis_dot : forall a t u, unit a -> dot a (mv (Rot2 a t) u) = dot a u.
Proof. intros a t u U. rewrite <- (Rot2_axis a t U) at 1. apply dot_rot, Rot2_rot; auto. Qed.
Lemma rot_perp_comm : forall a t u, unit a -> perp a (mv (Rot2 a t) u) = mv (Rot2 a t) (perp a u).
Proof. intros a t u U. unfold perp at 1. rewrite rot_axis_dot, rot_split by auto. vlin. Qed.

Lemma move_rot : forall a o t x, unit a -> move1 (E ROTATION a o) t x = vadd o (mv (Rot2 a t) (vsub x o)).
Proof. intros; apply asFrame_rot_app; auto. Qed.
Lemma move_trans : forall a o t x, move1 (E TRANSLATION a o) t x = vadd x (vscale t a).
Proof. intros; apply asFrame_trans_app. Qed.
Lemma move_rot_sub : forall a o t x, unit a -> vsub (move1 (E ROTATION a o) t x) o = mv (Rot2 a t) (vsub x o).
Proof. intros; rewrite move_rot by auto; vlin. Qed.

(** the angle computed by all rotation subproblems *)
Definition raw_angle (a u v : vec) : R := atan2 (dot a (cross (perp a u) (perp a v))) (dot (perp a u) (perp a v)).

Lemma raw_angle_rot : forall a u v, unit a -> dot a u = dot a v -> dot u u = dot v v ->
  mv (Rot2 a (raw_angle a u v)) u = v.
Proof.
  intros a u v U H1 H2. rewrite rot_split by auto. unfold raw_angle.
  rewrite rot_to_eq by (auto using perp_dot; rewrite !perp_norm2, H1, H2 by auto; reflexivity).
  rewrite H1, <- perp_split; reflexivity.
Qed.

(** ** Angle normalisation *)
Lemma Rot2_2PI : forall a t, Rot2 a (t + 2 * PI) = Rot2 a t.
Proof. intros; unfold Rot2. rewrite sin_plus, cos_plus, sin_2PI, cos_2PI. apply mat_eq; cbn; ring. Qed.
Lemma Rot2_m2PI : forall a t, Rot2 a (t - 2 * PI) = Rot2 a t.
Proof. intros; rewrite <- (Rot2_2PI a (t - 2 * PI)). f_equal; ring. Qed.

Lemma snap : forall t, - (3 * PI) < t < 3 * PI -> - PI < normalizeAngle t <= PI /\
  exists s, (forall a, Rot2 a s = Rot2 a t) /\ sin s = sin t /\ cos s = cos t /\ Rabs (normalizeAngle t - s) < kdl_eps /\
    (normalizeAngle t <> PI -> normalizeAngle t = s).
Proof.
  intros t Ht. pose proof PI_RGT_0. pose proof kdl_eps_pos.
  assert (Q : forall s, s = t \/ s = t + 2 * PI \/ s = t - 2 * PI ->
     (forall a, Rot2 a s = Rot2 a t) /\ sin s = sin t /\ cos s = cos t).
  { assert (A : sin (t + 2 * PI) = sin t /\ cos (t + 2 * PI) = cos t)
      by (rewrite sin_plus, cos_plus, sin_2PI, cos_2PI; split; ring).
    assert (B : sin (t - 2 * PI) = sin t /\ cos (t - 2 * PI) = cos t)
      by (rewrite sin_minus, cos_minus, sin_2PI, cos_2PI; split; ring).
    intros s [-> | [-> | ->]]; repeat split; auto using Rot2_2PI, Rot2_m2PI; try apply A; apply B. }
  unfold normalizeAngle. destruct (Equal (Rabs t) PI) eqn:E1.
  - apply Equal_true in E1. split; [lra|]. destruct (Rle_dec 0 t).
    + rewrite (Rabs_pos_eq t) in E1 by auto. exists t. destruct (Q t) as (? & ? & ?); auto.
      repeat split; auto; [rewrite Rabs_minus_sym; auto | lra].
    + rewrite (Rabs_left t) in E1 by lra. exists (t + 2 * PI). destruct (Q (t + 2 * PI)) as (? & ? & ?); auto.
      repeat split; auto; [|lra]. replace (PI - (t + 2 * PI)) with (- t - PI) by ring. auto.
  - apply Equal_false in E1. pose proof (Rabs_pos t).
    destruct (Rltb PI t) eqn:E2; [apply Rltb_true in E2 | apply Rltb_false in E2].
    + split; [lra|]. exists (t - 2 * PI). destruct (Q (t - 2 * PI)) as (? & ? & ?); auto.
      repeat split; auto. rewrite Rminus_diag_eq, Rabs_R0; auto.
    + destruct (Rltb t (- PI)) eqn:E3; [apply Rltb_true in E3 | apply Rltb_false in E3].
      * split; [|exists (t + 2 * PI); destruct (Q (t + 2 * PI)) as (? & ? & ?); auto;
          repeat split; auto; rewrite Rminus_diag_eq, Rabs_R0; auto].
        rewrite (Rabs_left t) in E1 by lra. rewrite Rabs_pos_eq in E1 by lra. lra.
      * split; [|exists t; destruct (Q t) as (? & ? & ?); auto; repeat split; auto; rewrite Rminus_diag_eq, Rabs_R0; auto].
        destruct (Req_dec t (- PI)) as [->|]; [|lra].
        rewrite Rabs_Ropp, (Rabs_pos_eq PI), Rminus_diag_eq, Rabs_R0 in E1 by lra. lra.
Qed.

Lemma snap_rot : forall a t u, unit a -> - (3 * PI) < t < 3 * PI ->
  - PI < normalizeAngle t <= PI /\
  (normalizeAngle t <> PI -> mv (Rot2 a (normalizeAngle t)) u = mv (Rot2 a t) u) /\
  norm (vsub (mv (Rot2 a (normalizeAngle t)) u) (mv (Rot2 a t) u)) <= kdl_eps * norm u.
Proof.
  intros a t u U Ht. destruct (snap t Ht) as (B & s & R & _ & _ & D & X). split; [exact B|]. split.
  - intro N. rewrite (X N), R; reflexivity.
  - rewrite <- R. eapply Rle_trans; [apply chord2; auto|].
    apply Rmult_le_compat_r; [apply norm_nonneg | lra].
Qed.

Lemma raw_range : forall a u v, - (3 * PI) < raw_angle a u v < 3 * PI.
Proof. intros; unfold raw_angle. pose proof PI_RGT_0. pose proof (atan2_bound (dot a (cross (perp a u) (perp a v))) (dot (perp a u) (perp a v))). lra. Qed.

(** ** PK1 *)
Lemma pk1_unfold : forall id a o p rhs pt,
  pk1_solve id (E ROTATION a o) p rhs pt =
  let u := vsub (fapp pt p) o in let v := vsub (fapp rhs p) o in
  Some (EqualV (vscale (dot a u) a) (vscale (dot a v) a) && Equal (norm (perp a u)) (norm (perp a v)),
        [[(id, normalizeAngle (raw_angle a u v))]]).
Proof. intros. unfold pk1_solve. cbn [e_axis e_origin]. rewrite !perp_eq, !pow2_mv. reflexivity. Qed.

Lemma pk1_complete : forall id a o p rhs pt t, unit a ->
  move1 (E ROTATION a o) t (fapp pt p) = fapp rhs p ->
  exists th, pk1_solve id (E ROTATION a o) p rhs pt = Some (true, [[(id, th)]]) /\
    - PI < th <= PI /\
    (th <> PI -> move1 (E ROTATION a o) th (fapp pt p) = fapp rhs p) /\
    dist (move1 (E ROTATION a o) th (fapp pt p)) (fapp rhs p) <= kdl_eps * dist (fapp pt p) o.
Proof.
  intros id a o p rhs pt t U H. rewrite pk1_unfold. cbv zeta.
  set (f := fapp pt p) in *. set (k := fapp rhs p) in *.
  assert (K : vsub k o = mv (Rot2 a t) (vsub f o)) by (rewrite <- H; apply move_rot_sub; auto).
  set (u := vsub f o) in *. set (v := vsub k o) in *.
  assert (D1 : dot a u = dot a v) by (rewrite K, rot_axis_dot; auto).
  assert (D2 : dot u u = dot v v) by (rewrite K, dot_rot; auto; apply Rot2_rot; auto).
  assert (D3 : norm (perp a u) = norm (perp a v)) by (apply norm_eq_iff; rewrite !perp_norm2, D1, D2; auto).
  exists (normalizeAngle (raw_angle a u v)). rewrite D1, EqualV_refl, D3, Equal_refl. split; [reflexivity|].
  destruct (snap_rot a (raw_angle a u v) u U (raw_range a u v)) as (B & X & N).
  rewrite raw_angle_rot in X, N by auto. split; [exact B|]. unfold dist. rewrite move_rot by auto. fold u. split.
  - intro Z. rewrite (X Z). unfold v; vlin.
  - replace (vsub (vadd o (mv (Rot2 a (normalizeAngle (raw_angle a u v))) u)) k)
      with (vsub (mv (Rot2 a (normalizeAngle (raw_angle a u v))) u) v) by (unfold v; vlin). exact N.
Qed.

Lemma rot_to_dist : forall a u v, unit a -> dot a u = 0 -> dot a v = 0 ->
  norm (vsub (mv (Rot2 a (atan2 (dot a (cross u v)) (dot u v))) u) v) = Rabs (norm u - norm v).
Proof.
  intros a u v U Hu Hv. pose proof (rot_to a u v U Hu Hv) as R. set (w := mv _ u) in *.
  assert (W : norm w = norm u) by (apply norm_rot, Rot2_rot; auto).
  destruct (Req_dec (norm v) 0) as [Z|Z].
  - rewrite Z, Rminus_0_r, Rabs_pos_eq by apply norm_nonneg. apply norm_zero in Z. subst v.
    rewrite <- W. f_equal. destruct w; unfold vsub, vzero; cbn; f_equal; ring.
  - replace (vsub w v) with (vscale (norm u / norm v - 1) v).
    + rewrite norm_scale. rewrite <- (Rabs_pos_eq (norm v)) at 2 by apply norm_nonneg.
      rewrite <- Rabs_mult. f_equal. field; auto.
    + unfold vscale, vsub in *. injection R; intros Rz Ry Rx.
      apply vec_eq; cbn; apply Rmult_eq_reg_l with (norm v); auto; field_simplify; auto; lra.
Qed.

Lemma pk1_sound : forall id a o p rhs pt sols, unit a ->
  pk1_solve id (E ROTATION a o) p rhs pt = Some (true, sols) ->
  exists th, sols = [[(id, th)]] /\
    dist (move1 (E ROTATION a o) th (fapp pt p)) (fapp rhs p) <= 3 * kdl_eps + kdl_eps * dist (fapp pt p) o.
Proof.
  intros id a o p rhs pt sols U H. rewrite pk1_unfold in H. cbv zeta in H.
  set (f := fapp pt p) in *. set (k := fapp rhs p) in *.
  set (u := vsub f o) in *. set (v := vsub k o) in *.
  injection H; intros <- H1. clear H. eexists; split; [reflexivity|].
  apply andb_true_iff in H1 as [H1 H2]. apply EqualV_true in H1 as (X & Y & Z). apply Equal_true in H2.
  destruct (snap_rot a (raw_angle a u v) u U (raw_range a u v)) as (_ & _ & N).
  unfold dist. rewrite move_rot by auto. fold u. set (th := normalizeAngle _) in *.
  replace (vsub (vadd o (mv (Rot2 a th) u)) k) with (vsub (mv (Rot2 a th) u) v) by (unfold v; vlin).
  eapply Rle_trans; [apply (norm_triangle3 _ (mv (Rot2 a (raw_angle a u v)) u))|].
  assert (G : norm (vsub (mv (Rot2 a (raw_angle a u v)) u) v) <= 3 * kdl_eps); [|lra].
  rewrite rot_split by auto. rewrite (perp_split a v) at 2.
  replace (vsub (vadd (vscale (dot a u) a) (mv (Rot2 a (raw_angle a u v)) (perp a u))) (vadd (vscale (dot a v) a) (perp a v)))
    with (vadd (vsub (vscale (dot a u) a) (vscale (dot a v) a)) (vsub (mv (Rot2 a (raw_angle a u v)) (perp a u)) (perp a v))) by vlin.
  eapply Rle_trans; [apply norm_triangle|].
  unfold raw_angle at 1. rewrite rot_to_dist by auto using perp_dot.
  assert (norm (vsub (vscale (dot a u) a) (vscale (dot a v) a)) <= 2 * kdl_eps); [|lra].
  apply norm_comps; cbn in *; try lra. pose proof kdl_eps_pos; lra.
Qed.
