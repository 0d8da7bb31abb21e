(** What the subproblems of two joints answer for a target out of reach (C168). *)
From Coq Require Import Reals List Lra Psatz Bool.
From Verif Require Import Kdl KdlFacts Screw ScrewFacts Trig TrigFacts Subproblems SubproblemFacts SubproblemFacts2 SubproblemFacts3 SubproblemFacts4 NearPlaneFacts NearestFacts.
Import ListNotations.
Open Scope R_scope.

Lemma atan2_mirror : forall y x, cos (atan2 (- y) x) = cos (atan2 y x) /\ sin (atan2 (- y) x) = - sin (atan2 y x).
Proof.
  intros y x. destruct (Req_dec (x * x + y * y) 0) as [Z|NZ].
  - assert (x = 0) by nra. assert (y = 0) by nra. subst. rewrite Ropp_0. unfold atan2.
    rewrite (proj2 (Rltb_false 0 0)) by lra. rewrite sin_0, cos_0. lra.
  - pose proof (atan2_polar y x) as (C & S). pose proof (atan2_polar (- y) x) as (C' & S').
    replace (x * x + - y * - y) with (x * x + y * y) in C', S' by ring.
    assert (R : sqrt (x * x + y * y) <> 0). { intro Q. apply sqrt_eq_0 in Q; [contradiction | nra]. }
    split; apply Rmult_eq_reg_l with (sqrt (x * x + y * y)); auto; lra.
Qed.

Lemma Rot2_trig : forall a s t, cos s = cos t -> sin s = sin t -> Rot2 a s = Rot2 a t.
Proof. intros a s t C S. unfold Rot2. rewrite C, S. reflexivity. Qed.

Lemma norm_perp_le : forall a x, unit a -> norm (perp a x) <= norm x.
Proof.
  intros a x U. apply norm_le_sqr; [apply norm_nonneg|]. rewrite norm_sqr, perp_norm2 by auto.
  pose proof (Rle_0_sqr (dot a x)). unfold Rsqr in *. lra.
Qed.
Lemma norm_rot : forall a t x, unit a -> norm (mv (Rot2 a t) x) = norm x.
Proof. intros a t x U. unfold norm. rewrite dot_rot by (apply Rot2_rot; auto). reflexivity. Qed.
Lemma norm_back : forall x y, norm x - norm y <= norm (vsub x y).
Proof. intros x y. pose proof (norm_triangle (vsub x y) y). replace (vadd (vsub x y) y) with x in H by vlin. lra. Qed.
Lemma norm_neg' : forall x, norm (vneg x) = norm x.
Proof. intro x. unfold norm. f_equal. vunf. ring. Qed.

Section PG4.
  Variables (id1 id2 : nat) (a1 o1 a2 o2 p : vec) (s : R) (rhs pt : frame).
  Hypothesis U1 : unit a1.
  Hypothesis SS : s * s = 1.
  Hypothesis A2 : a2 = vscale s a1.
  Let f := fapp pt p.
  Let k := fapp rhs p.
  Let e1 := E ROTATION a1 o1.
  Let e2 := E ROTATION a2 o2.
  Let u := vsub f o2.
  Let v := vsub k o1.
  Let d := vsub o2 o1.
  Let D := perp a1 d.
  Let cn := norm D.
  Let nu := norm (perp a1 u).
  Let nv := norm (perp a1 v).
  Hypothesis PL : dot a1 (vsub k f) = 0.
  Hypothesis NEAR : nu + nv + kdl_eps <= cn.

  Let th1 := atan2 (dot a1 (cross D (perp a1 v))) (dot D (perp a1 v)).
  Let th2 := atan2 (dot a2 (cross (perp a1 u) D)) (dot (vneg D) (perp a1 u)).

  Lemma near_unit2 : unit a2.
  Proof. exact (U2 a1 a2 s U1 SS A2). Qed.

  Lemma near_solve : pg4_solve id1 id2 e1 e2 p rhs pt =
    Some (false, let l := [(id1, normalizeAngle th1); (id2, normalizeAngle th2)] in [l; l]).
  Proof.
    pose proof kdl_eps_pos. assert (0 <= nu) by apply norm_nonneg. assert (0 <= nv) by apply norm_nonneg.
    unfold e1, e2. rewrite (pg4_unfold id1 id2 a1 o1 a2 o2 p s rhs pt U1 SS A2).
    - fold f k. fold u v d. fold D. fold cn nu nv.
      rewrite (proj2 (Rltb_false 0 (nu + nv - cn))) by lra. rewrite andb_false_r.
      rewrite (proj2 (Equal_false (nu + nv - cn) 0)). 2:{ rewrite Rminus_0_r, Rabs_left by lra. lra. } reflexivity.
    - fold d. fold D. fold cn. lra.
    - fold f k. rewrite dot_sub_r in PL. rewrite !dot_sub_r. lra.
  Qed.

  (** the point after two turns, seen from the first axis *)
  Lemma near_place : forall t1 t2, vsub (move2 e1 e2 t1 t2 f) k = vsub (mv (Rot2 a1 t1) (vadd d (mv (Rot2 a2 t2) u))) v.
  Proof.
    intros t1 t2. unfold move2, e1, e2. rewrite !move_rot by (auto using near_unit2). fold u.
    replace (vsub (vadd o2 (mv (Rot2 a2 t2) u)) o1) with (vadd d (mv (Rot2 a2 t2) u)) by (unfold d; vlin).
    unfold v. vlin.
  Qed.

  Lemma perp_two : forall t1 t2, perp a1 (vsub (mv (Rot2 a1 t1) (vadd d (mv (Rot2 a2 t2) u))) v)
    = vsub (mv (Rot2 a1 t1) (vadd D (mv (Rot2 a2 t2) (perp a1 u)))) (perp a1 v).
  Proof.
    intros t1 t2. rewrite perp_sub, rot_perp_comm by auto. rewrite perp_add. fold D.
    rewrite <- (perp_a2 a1 a2 s SS A2 (mv _ u)), rot_perp_comm by apply near_unit2. rewrite (perp_a2 a1 a2 s SS A2). reflexivity.
  Qed.

  Lemma near_least : forall t1 t2, cn - nu - nv <= dist (move2 e1 e2 t1 t2 f) k.
  Proof.
    intros t1 t2. unfold dist. rewrite near_place. eapply Rle_trans; [|apply (norm_perp_le a1); auto].
    rewrite perp_two. eapply Rle_trans; [|apply norm_back]. rewrite norm_rot by auto. fold nv.
    pose proof (norm_back D (vneg (mv (Rot2 a2 t2) (perp a1 u)))) as B. rewrite norm_neg', norm_rot in B by apply near_unit2. fold cn nu in B.
    replace (vsub D (vneg (mv (Rot2 a2 t2) (perp a1 u)))) with (vadd D (mv (Rot2 a2 t2) (perp a1 u))) in B by vlin. lra.
  Qed.

  Lemma near_fold : vscale cn (mv (Rot2 a2 (- th2)) (perp a1 u)) = vscale nu (vneg D).
  Proof.
    pose proof near_unit2 as U2'.
    pose proof (rot_to a2 (perp a1 u) (vneg D) U2') as R.
    assert (P1 : dot a2 (perp a1 u) = 0) by (rewrite A2, dot_scale_l, perp_dot by auto; ring).
    assert (P2 : dot a2 (vneg D) = 0).
    { rewrite A2, dot_scale_l. replace (dot a1 (vneg D)) with (- dot a1 D) by (vunf; ring). unfold D. rewrite perp_dot by auto. ring. }
    specialize (R P1 P2). rewrite norm_neg' in R. fold cn nu in R. rewrite <- R. f_equal. f_equal. apply Rot2_trig.
    - rewrite cos_neg. unfold th2. destruct (atan2_mirror (dot a2 (cross (perp a1 u) D)) (dot (vneg D) (perp a1 u))) as (C & _).
      rewrite <- C. f_equal. f_equal; [vunf; ring | apply dot_comm].
    - rewrite sin_neg. unfold th2. destruct (atan2_mirror (dot a2 (cross (perp a1 u) D)) (dot (vneg D) (perp a1 u))) as (_ & S).
      rewrite <- S. f_equal. f_equal; [vunf; ring | apply dot_comm].
  Qed.

  Lemma near_exact : dist (move2 e1 e2 th1 (- th2) f) k = cn - nu - nv.
  Proof.
    pose proof kdl_eps_pos. assert (N0 : 0 <= nu) by apply norm_nonneg. assert (V0 : 0 <= nv) by apply norm_nonneg.
    assert (CN : cn <> 0) by lra.
    pose proof near_fold as F.
    assert (W : mv (Rot2 a2 (- th2)) (perp a1 u) = vscale (- (nu / cn)) D).
    { set (w := mv _ _) in *. replace w with (vscale (/ cn) (vscale cn w)).
      2:{ rewrite vscale_vscale. rewrite Rinv_l by auto. vlin. }
      rewrite F. unfold Rdiv. vlin. }
    set (lam := 1 - nu / cn).
    assert (L : vadd D (mv (Rot2 a2 (- th2)) (perp a1 u)) = vscale lam D) by (rewrite W; unfold lam; vlin).
    pose proof (rot_to a1 D (perp a1 v) U1) as R. fold th1 in R.
    specialize (R ltac:(unfold D; apply perp_dot; auto) ltac:(apply perp_dot; auto)). fold cn nv in R.
    assert (Q : dot (mv (Rot2 a1 th1) D) (perp a1 v) = cn * nv).
    { destruct (Req_dec nv 0) as [Z|NZ].
      - assert (PZ : perp a1 v = vzero) by (apply norm_zero; exact Z). rewrite PZ, dot_zero_r, Z. ring.
      - apply Rmult_eq_reg_l with nv; auto. rewrite <- dot_scale_l, R, dot_scale_l, <- norm_sqr. fold nv. ring. }
    assert (AX : forall t1 t2, dot a1 (vsub (mv (Rot2 a1 t1) (vadd d (mv (Rot2 a2 t2) u))) v) = 0).
    { intros t1 t2. rewrite dot_sub_r, rot_axis_dot, dot_add_r by auto.
      assert (dot a1 (mv (Rot2 a2 t2) u) = dot a1 u). { apply (dot_a2 a1 a2 s SS A2). apply rot_axis_dot, near_unit2. }
      rewrite H0. unfold d, u, v. rewrite dot_sub_r in PL. rewrite !dot_sub_r. lra. }
    unfold dist. rewrite near_place. rewrite <- (perp_of_perp a1 (vsub _ v)) by apply AX. rewrite perp_two, L.
    assert (LC : lam * cn = cn - nu) by (unfold lam; field; auto).
    unfold norm. replace (dot _ _) with ((cn - nu - nv) * (cn - nu - nv)); [apply sqrt_square; lra|].
    rewrite mv_scale. set (x := mv (Rot2 a1 th1) D) in *.
    assert (XX : dot x x = cn * cn). { unfold x. rewrite dot_rot by (apply Rot2_rot; auto). unfold cn. rewrite norm_sqr. reflexivity. }
    rewrite !dot_sub_l, !dot_sub_r, !dot_scale_l, !dot_scale_r, (dot_comm (perp a1 v) x), Q, XX.
    replace (dot (perp a1 v) (perp a1 v)) with (nv * nv) by (unfold nv; apply norm_sqr).
    replace (lam * (lam * (cn * cn)) - lam * (cn * nv) - (lam * (cn * nv) - nv * nv)) with (lam * cn * (lam * cn) - 2 * (lam * cn) * nv + nv * nv) by ring.
    rewrite LC. ring.
  Qed.

  Lemma near_snap : dist (move2 e1 e2 (normalizeAngle th1) (- normalizeAngle th2) f) (move2 e1 e2 th1 (- th2) f)
    <= kdl_eps * (dist o2 o1 + 2 * dist f o2).
  Proof.
    pose proof near_unit2 as U2'. pose proof PI_RGT_0 as PP.
    assert (B1 : - (3 * PI) < th1 < 3 * PI) by (unfold th1; match goal with |- context [atan2 ?y ?x] => pose proof (atan2_bound y x) end; lra).
    assert (B2 : - (3 * PI) < th2 < 3 * PI) by (unfold th2; match goal with |- context [atan2 ?y ?x] => pose proof (atan2_bound y x) end; lra).
    destruct (snap th2 B2) as (_ & s2 & _ & S2 & C2 & N2 & _).
    set (n2 := normalizeAngle th2) in *. set (n1 := normalizeAngle th1).
    assert (E2 : norm (vsub (mv (Rot2 a2 (- n2)) u) (mv (Rot2 a2 (- th2)) u)) <= kdl_eps * norm u).
    { rewrite <- (Rot2_trig a2 (- s2) (- th2)) by (rewrite ?cos_neg, ?sin_neg; congruence).
      eapply Rle_trans; [apply chord2; auto|]. apply Rmult_le_compat_r; [apply norm_nonneg|].
      replace (- n2 - - s2) with (- (n2 - s2)) by ring. rewrite Rabs_Ropp. lra. }
    set (x := vadd d (mv (Rot2 a2 (- n2)) u)). set (y := vadd d (mv (Rot2 a2 (- th2)) u)).
    destruct (snap_rot a1 th1 x U1 B1) as (_ & _ & E1). fold n1 in E1.
    unfold dist.
    replace (vsub (move2 e1 e2 n1 (- n2) f) (move2 e1 e2 th1 (- th2) f))
      with (vadd (vsub (mv (Rot2 a1 n1) x) (mv (Rot2 a1 th1) x)) (mv (Rot2 a1 th1) (vsub x y))).
    2:{ transitivity (vsub (vsub (move2 e1 e2 n1 (- n2) f) k) (vsub (move2 e1 e2 th1 (- th2) f) k)); [|vlin].
        rewrite !near_place. fold x y. rewrite mv_sub. vlin. }
    eapply Rle_trans; [apply norm_triangle|]. rewrite norm_rot by auto.
    replace (vsub x y) with (vsub (mv (Rot2 a2 (- n2)) u) (mv (Rot2 a2 (- th2)) u)) by (unfold x, y; vlin).
    assert (X : norm x <= norm d + norm u).
    { unfold x. eapply Rle_trans; [apply norm_triangle|]. rewrite norm_rot by auto. lra. }
    pose proof kdl_eps_pos. fold d u. nra.
  Qed.

  Lemma near_mirror : exists n1 n2,
    pg4_solve id1 id2 e1 e2 p rhs pt = Some (false, [[(id1, n1); (id2, n2)]; [(id1, n1); (id2, n2)]]) /\
    forall t1 t2, dist (move2 e1 e2 n1 (- n2) f) k <= dist (move2 e1 e2 t1 t2 f) k + kdl_eps * (dist o2 o1 + 2 * dist f o2).
  Proof.
    exists (normalizeAngle th1), (normalizeAngle th2). split; [exact near_solve|]. intros t1 t2.
    pose proof (near_least t1 t2). pose proof near_snap as S. pose proof near_exact as X. unfold dist in *.
    pose proof (norm_triangle3 (move2 e1 e2 (normalizeAngle th1) (- normalizeAngle th2) f) (move2 e1 e2 th1 (- th2) f) k). lra.
  Qed.

  Lemma near_aligned : dot a1 (cross u d) = 0 -> exists n1 n2,
    pg4_solve id1 id2 e1 e2 p rhs pt = Some (false, [[(id1, n1); (id2, n2)]; [(id1, n1); (id2, n2)]]) /\
    forall t1 t2, dist (move2 e1 e2 n1 n2 f) k <= dist (move2 e1 e2 t1 t2 f) k + kdl_eps * (dist o2 o1 + 2 * dist f o2).
  Proof.
    intro AL. exists (normalizeAngle th1), (normalizeAngle th2). split; [exact near_solve|]. intros t1 t2.
    pose proof (near_least t1 t2). pose proof near_snap as S. pose proof near_exact as X.
    assert (Y : dot a2 (cross (perp a1 u) D) = 0).
    { rewrite A2, dot_scale_l. replace (dot a1 (cross (perp a1 u) D)) with (dot a1 (cross u d)) by (unfold D, perp; vunf; ring). rewrite AL. ring. }
    assert (S0 : sin th2 = 0).
    { destruct (atan2_mirror (dot a2 (cross (perp a1 u) D)) (dot (vneg D) (perp a1 u))) as (_ & M). fold th2 in M.
      rewrite Y, Ropp_0 in M. unfold th2 in M |- *. rewrite Y in M |- *. lra. }
    assert (N0 : sin (normalizeAngle th2) = 0).
    { pose proof PI_RGT_0. destruct (snap th2) as (_ & s2 & _ & S2 & _ & _ & N).
      { unfold th2; match goal with |- context [atan2 ?y ?x] => pose proof (atan2_bound y x) end; lra. }
      destruct (Req_dec (normalizeAngle th2) PI) as [->|NP]; [apply sin_PI|]. rewrite (N NP). congruence. }
    assert (M : move2 e1 e2 (normalizeAngle th1) (normalizeAngle th2) f = move2 e1 e2 (normalizeAngle th1) (- normalizeAngle th2) f).
    { unfold move2, e1, e2. rewrite !move_rot by (auto using near_unit2).
      rewrite (Rot2_trig a2 (- normalizeAngle th2) (normalizeAngle th2)); [reflexivity | apply cos_neg | rewrite sin_neg, N0; ring]. }
    rewrite M. unfold dist in *.
    pose proof (norm_triangle3 (move2 e1 e2 (normalizeAngle th1) (- normalizeAngle th2) f) (move2 e1 e2 th1 (- th2) f) k). lra.
  Qed.
End PG4.

(** ** a target too far for two parallel axes *)
Lemma snap_two : forall a1 o1 a2 o2 f t1 t2, unit a1 -> unit a2 -> - (3 * PI) < t1 < 3 * PI -> - (3 * PI) < t2 < 3 * PI ->
  dist (move2 (E ROTATION a1 o1) (E ROTATION a2 o2) (normalizeAngle t1) (normalizeAngle t2) f)
       (move2 (E ROTATION a1 o1) (E ROTATION a2 o2) t1 t2 f) <= kdl_eps * (dist o2 o1 + 2 * dist f o2).
Proof.
  intros a1 o1 a2 o2 f t1 t2 U1 U2' B1 B2. set (u := vsub f o2). set (d := vsub o2 o1).
  destruct (snap_rot a2 t2 u U2' B2) as (_ & _ & E2).
  set (n1 := normalizeAngle t1) in *. set (n2 := normalizeAngle t2) in *.
  set (x := vadd d (mv (Rot2 a2 n2) u)). set (y := vadd d (mv (Rot2 a2 t2) u)).
  destruct (snap_rot a1 t1 x U1 B1) as (_ & _ & E1). fold n1 in E1.
  unfold move2, dist. rewrite !move_rot by auto. fold u.
  match goal with |- norm ?z <= _ => replace z with (vadd (vsub (mv (Rot2 a1 n1) x) (mv (Rot2 a1 t1) x)) (mv (Rot2 a1 t1) (vsub x y))) end.
  2:{ rewrite mv_sub. replace (vsub (vadd o2 (mv (Rot2 a2 n2) u)) o1) with x by (unfold x, d; vlin).
      replace (vsub (vadd o2 (mv (Rot2 a2 t2) u)) o1) with y by (unfold y, d; vlin). vlin. }
  eapply Rle_trans; [apply norm_triangle|]. rewrite norm_rot by auto.
  replace (vsub x y) with (vsub (mv (Rot2 a2 n2) u) (mv (Rot2 a2 t2) u)) by (unfold x, y; vlin).
  assert (X : norm x <= norm d + norm u).
  { unfold x. eapply Rle_trans; [apply norm_triangle|]. rewrite norm_rot by auto. lra. }
  pose proof kdl_eps_pos. fold d. nra.
Qed.

Definition ez := V 0 0 1.
Definition far_u := sqrt 112.
Definition far_v := sqrt 1081.
Definition far_e1 := E ROTATION ez vzero.
Definition far_e2 := E ROTATION ez (V 19 0 0).

Lemma far_u2 : far_u * far_u = 112. Proof. apply sqrt_sqrt; lra. Qed.
Lemma far_v2 : far_v * far_v = 1081. Proof. apply sqrt_sqrt; lra. Qed.
Lemma far_ub : 1058 / 100 < far_u < 1059 / 100.
Proof. pose proof far_u2. assert (0 <= far_u) by apply sqrt_pos. split; nra. Qed.
Lemma far_vb : 3287 / 100 < far_v < 3288 / 100.
Proof. pose proof far_v2. assert (0 <= far_v) by apply sqrt_pos. split; nra. Qed.
Lemma norm_pyth : forall x y z n, 0 <= n -> x * x + y * y + z * z = n * n -> norm (V x y z) = n.
Proof. intros x y z n N H. unfold norm. replace (dot _ _) with (n * n) by (rewrite <- H; vunf; cbn; ring). apply sqrt_square; auto. Qed.

Lemma far_one : forall sg, sg * sg = 1 ->
  far_v - 19 - far_u + 1 <= dist (move2 far_e1 far_e2
    (normalizeAngle (raw_angle ez (V 35 (12 * sg) 0) (V far_v 0 0)))
    (normalizeAngle (raw_angle ez (V far_u 0 0) (V 16 (12 * sg) 0))) (V (19 + far_u) 0 0)) (V far_v 0 0).
Proof.
  intros sg SG. pose proof far_ub as UB. pose proof far_vb as VB. pose proof far_u2 as FU. pose proof far_v2 as FV.
  assert (U : unit ez) by apply unit_ez.
  set (al := raw_angle ez (V 35 (12 * sg) 0) (V far_v 0 0)). set (be := raw_angle ez (V far_u 0 0) (V 16 (12 * sg) 0)).
  pose proof (snap_two ez vzero ez (V 19 0 0) (V (19 + far_u) 0 0) al be U U (raw_range _ _ _) (raw_range _ _ _)) as SN.
  fold far_e1 far_e2 in SN.
  replace (dist (V 19 0 0) vzero) with 19 in SN.
  2:{ unfold dist. replace (vsub (V 19 0 0) vzero) with (V 19 0 0) by vring. symmetry. apply norm_pyth; lra. }
  replace (dist (V (19 + far_u) 0 0) (V 19 0 0)) with far_u in SN.
  2:{ unfold dist. replace (vsub (V (19 + far_u) 0 0) (V 19 0 0)) with (V far_u 0 0) by vring. symmetry. apply norm_pyth; lra. }
  assert (PE : forall x y, perp ez (V x y 0) = V x y 0) by (intros; unfold perp, ez; vring).
  assert (Z0 : forall x y, dot ez (V x y 0) = 0) by (intros; unfold ez; vunf; cbn; ring).
  pose proof (rot_to ez (V far_u 0 0) (V 16 (12 * sg) 0) U (Z0 _ _) (Z0 _ _)) as R2.
  pose proof (rot_to ez (V 35 (12 * sg) 0) (V far_v 0 0) U (Z0 _ _) (Z0 _ _)) as R1.
  replace (atan2 _ _) with be in R2 by (unfold be, raw_angle; rewrite !PE; reflexivity).
  replace (atan2 _ _) with al in R1 by (unfold al, raw_angle; rewrite !PE; reflexivity).
  rewrite (norm_pyth 16 (12 * sg) 0 20) in R2 by nra. rewrite (norm_pyth far_u 0 0 far_u) in R2 by nra.
  rewrite (norm_pyth 35 (12 * sg) 0 37) in R1 by nra. rewrite (norm_pyth far_v 0 0 far_v) in R1 by nra.
  assert (B : mv (Rot2 ez be) (V far_u 0 0) = V (far_u * 16 / 20) (far_u * (12 * sg) / 20) 0).
  { set (w := mv _ _) in *. replace w with (vscale (/ 20) (vscale 20 w)) by (rewrite vscale_vscale, Rinv_l by lra; vlin). rewrite R2. vunf. f_equal; field. }
  set (w := V (19 + far_u * 16 / 20) (far_u * (12 * sg) / 20) 0).
  assert (P : vsub (move2 far_e1 far_e2 al be (V (19 + far_u) 0 0)) (V far_v 0 0) = vsub (mv (Rot2 ez al) w) (V far_v 0 0)).
  { unfold move2, far_e1, far_e2. rewrite !move_rot by auto. replace (vsub (V (19 + far_u) 0 0) (V 19 0 0)) with (V far_u 0 0) by vring.
    rewrite B. replace (vsub (vadd (V 19 0 0) (V (far_u * 16 / 20) (far_u * (12 * sg) / 20) 0)) vzero) with w by (unfold w; vring). vlin. }
  assert (Q : dot (mv (Rot2 ez al) w) (V far_v 0 0) = far_v / 37 * (665 + 176 / 5 * far_u)).
  { replace (V far_v 0 0) with (vscale (/ 37) (vscale 37 (V far_v 0 0))) by (rewrite vscale_vscale, Rinv_l by lra; vlin).
    rewrite <- R1, !dot_scale_r, dot_rot by (apply Rot2_rot; auto).
    replace (dot w (V 35 (12 * sg) 0)) with (665 + 28 * far_u + far_u * (144 / 20) * (sg * sg)) by (unfold w; vunf; cbn; field).
    rewrite SG. field. }
  assert (W : dot w w = 361 + 152 / 5 * far_u + 112).
  { replace (dot w w) with (361 + 152 / 5 * far_u + far_u * far_u * (16 / 25 + 9 / 25 * (sg * sg))) by (unfold w; vunf; cbn; field). rewrite SG, FU. field. }
  assert (G : far_v - 19 - far_u + 3 / 2 <= dist (move2 far_e1 far_e2 al be (V (19 + far_u) 0 0)) (V far_v 0 0)).
  { apply sq_le; [lra | apply norm_nonneg |]. unfold dist. rewrite P, norm_sqr, dot_sub_l, !dot_sub_r, (dot_comm (V far_v 0 0) (mv _ _)), Q.
    rewrite dot_rot by (apply Rot2_rot; auto). rewrite W. replace (dot (V far_v 0 0) (V far_v 0 0)) with 1081 by (rewrite <- FV; vunf; cbn; ring).
    assert (far_v * far_u <= 3483 / 10) by nra. nra. }
  unfold kdl_eps in SN. set (n1 := normalizeAngle al) in *. set (n2 := normalizeAngle be) in *.
  unfold dist in *. pose proof (norm_triangle3 (move2 far_e1 far_e2 al be (V (19 + far_u) 0 0)) (move2 far_e1 far_e2 n1 n2 (V (19 + far_u) 0 0)) (V far_v 0 0)) as T.
  replace (norm (vsub (move2 far_e1 far_e2 al be (V (19 + far_u) 0 0)) (move2 far_e1 far_e2 n1 n2 (V (19 + far_u) 0 0))))
    with (norm (vsub (move2 far_e1 far_e2 n1 n2 (V (19 + far_u) 0 0)) (move2 far_e1 far_e2 al be (V (19 + far_u) 0 0)))) in T.
  2:{ rewrite <- norm_neg'. f_equal. vlin. }
  lra.
Qed.

Lemma pg4_far_ex : exists id1 id2 e1 e2 p rhs pt flag th11 th21 th12 th22 t1 t2,
  unit (e_axis e1) /\ e_axis e2 = e_axis e1 /\ e_motion e1 = ROTATION /\ e_motion e2 = ROTATION /\ rigid rhs /\ rigid pt /\
  pg4_solve id1 id2 e1 e2 p rhs pt = Some (flag, [[(id1, th11); (id2, th21)]; [(id1, th12); (id2, th22)]]) /\
  dot (e_axis e1) (vsub (fapp rhs p) (fapp pt p)) = 0 /\
  dist (move2 e1 e2 t1 t2 (fapp pt p)) (fapp rhs p) + 1 <= dist (move2 e1 e2 th11 th21 (fapp pt p)) (fapp rhs p) /\
  dist (move2 e1 e2 t1 t2 (fapp pt p)) (fapp rhs p) + 1 <= dist (move2 e1 e2 th12 th22 (fapp pt p)) (fapp rhs p).
Proof.
  pose proof far_ub as UB. pose proof far_vb as VB. pose proof far_u2 as FU. pose proof far_v2 as FV. pose proof eps_small as ES. pose proof kdl_eps_pos as EP.
  assert (U : unit ez) by apply unit_ez.
  set (rhs := ftrans (V (far_v - 19 - far_u) 0 0)).
  assert (FP : fapp rhs (V (19 + far_u) 0 0) = V far_v 0 0) by (unfold rhs; pts; f_equal; ring).
  exists O, 1%nat, far_e1, far_e2, (V (19 + far_u) 0 0), rhs, fid.
  rewrite fapp_id, FP. do 5 eexists. exists 0, 0.
  split; [exact U|]. split; [reflexivity|]. split; [reflexivity|]. split; [reflexivity|].
  split; [apply rigid_trans|]. split; [apply rigid_id|].
  assert (PE : forall x y, perp ez (V x y 0) = V x y 0) by (intros; unfold perp, ez; vring).
  assert (D : perp ez (vsub (V 19 0 0) vzero) = V 19 0 0) by (replace (vsub (V 19 0 0) vzero) with (V 19 0 0) by vring; apply PE).
  assert (N19 : norm (V 19 0 0) = 19) by (apply norm_pyth; lra).
  assert (M0 : dist (move2 far_e1 far_e2 0 0 (V (19 + far_u) 0 0)) (V far_v 0 0) = far_v - 19 - far_u).
  { unfold move2, move1. rewrite !asFrame_0 by apply unit_ez. rewrite !fapp_id. unfold dist.
    replace (vsub (V (19 + far_u) 0 0) (V far_v 0 0)) with (V (- (far_v - 19 - far_u)) 0 0) by vring. apply norm_pyth; [lra | ring]. }
  split; [|split; [unfold far_e1, ez; vunf; cbn; ring | rewrite M0; split]].
  - unfold far_e1, far_e2. rewrite (pg4_unfold O 1%nat ez vzero ez (V 19 0 0) (V (19 + far_u) 0 0) 1); auto;
      rewrite ?FP, ?fapp_id, ?D, ?N19; try lra; try (unfold ez; vring).
    replace (vsub (V (19 + far_u) 0 0) (V 19 0 0)) with (V far_u 0 0) by vring.
    replace (vsub (V far_v 0 0) vzero) with (V far_v 0 0) by vring. rewrite !PE.
    rewrite (norm_pyth far_u 0 0 far_u), (norm_pyth far_v 0 0 far_v) by nra.
    rewrite (proj2 (Rltb_true 0 (far_u + far_v - 19))) by lra.
    rewrite (proj2 (Equal_false (far_u + far_v - 19) 0)). 2:{ rewrite Rminus_0_r, Rabs_pos_eq by lra. lra. } cbn [negb andb].
    replace ((19 * 19 - far_u * far_u + far_v * far_v) / (2 * 19)) with 35 by (rewrite FU, FV; field).
    replace (sqrt (Rabs (far_v * far_v - 35 * 35))) with 12.
    2:{ rewrite FV, Rabs_left by lra. replace (- (1081 - 35 * 35)) with (12 * 12) by ring. symmetry. apply sqrt_square; lra. }
    unfold pg4_pair. rewrite FP, fapp_id.
    replace (vsub (V (19 + far_u) 0 0) (V 19 0 0)) with (V far_u 0 0) by vring.
    replace (vsub (V far_v 0 0) vzero) with (V far_v 0 0) by vring.
    set (c := vadd (vadd _ _) _). set (c' := vsub (vadd _ _) (vscale 12 _)).
    replace (vsub c vzero) with (V 35 (12 * 1) 0) by (unfold c, ez; vunf; cbn; f_equal; field).
    replace (vsub c (V 19 0 0)) with (V 16 (12 * 1) 0) by (unfold c, ez; vunf; cbn; f_equal; field).
    replace (vsub c' vzero) with (V 35 (12 * -1) 0) by (unfold c', ez; vunf; cbn; f_equal; field).
    replace (vsub c' (V 19 0 0)) with (V 16 (12 * -1) 0) by (unfold c', ez; vunf; cbn; f_equal; field).
    reflexivity.
  - exact (far_one 1 ltac:(ring)).
  - exact (far_one (-1) ltac:(ring)).
Qed.

(** a target too near *)
Lemma pg4_near_ex : exists id1 id2 e1 e2 p rhs pt flag th1 th2 t1 t2,
  unit (e_axis e1) /\ e_axis e2 = e_axis e1 /\ e_motion e1 = ROTATION /\ e_motion e2 = ROTATION /\ rigid rhs /\ rigid pt /\
  pg4_solve id1 id2 e1 e2 p rhs pt = Some (flag, [[(id1, th1); (id2, th2)]; [(id1, th1); (id2, th2)]]) /\
  dot (e_axis e1) (vsub (fapp rhs p) (fapp pt p)) = 0 /\
  dist (move2 e1 e2 t1 t2 (fapp pt p)) (fapp rhs p) + 1 <= dist (move2 e1 e2 th1 th2 (fapp pt p)) (fapp rhs p).
Proof.
  assert (U : unit ez) by apply unit_ez. pose proof eps_small as ES. destruct na_half as (N1 & N2).
  assert (FP : fapp (ftrans (V (-4) 0 0)) (V 4 1 0) = V 0 1 0) by (pts; f_equal; ring).
  exists O, 1%nat, (E ROTATION ez vzero), (E ROTATION ez (V 4 0 0)), (V 4 1 0), (ftrans (V (-4) 0 0)), fid.
  exists false, (PI / 2), (- (PI / 2)), (PI / 2), (PI / 2). rewrite fapp_id, FP. cbn [e_axis e_motion].
  split; [exact U|]. split; [reflexivity|]. split; [reflexivity|]. split; [reflexivity|].
  split; [apply rigid_trans|]. split; [apply rigid_id|].
  assert (D : perp ez (vsub (V 4 0 0) vzero) = V 4 0 0) by (unfold perp, ez; vring).
  assert (PU : perp ez (vsub (V 4 1 0) (V 4 0 0)) = V 0 1 0) by (unfold perp, ez; vring).
  assert (PV : perp ez (vsub (V 0 1 0) vzero) = V 0 1 0) by (unfold perp, ez; vring).
  split; [|split; [unfold ez; vunf; cbn; ring|]].
  - rewrite (near_solve O 1%nat ez vzero ez (V 4 0 0) (V 4 1 0) 1); auto; rewrite ?fapp_id, ?FP, ?D, ?PU, ?PV; try lra; try (unfold ez; vring).
    + replace (dot ez (cross (V 4 0 0) (V 0 1 0))) with 4 by (unfold ez; vunf; cbn; ring).
      replace (dot (V 4 0 0) (V 0 1 0)) with 0 by (vunf; cbn; ring).
      replace (dot ez (cross (V 0 1 0) (V 4 0 0))) with (-(4)) by (unfold ez; vunf; cbn; ring).
      replace (dot (vneg (V 4 0 0)) (V 0 1 0)) with 0 by (vunf; cbn; ring).
      rewrite (atan2_up 4), (atan2_down (-(4))), N1, N2 by lra. reflexivity.
    + rewrite norm_010, (norm_pyth 4 0 0 4) by lra. lra.
  - unfold move2, ez. rewrite !move_rot by apply unit_ez. rewrite !rotz_half, rotz_mhalf. unfold dist.
    match goal with |- norm ?x + 1 <= norm ?y => replace x with (V 0 2 0) by vring; replace y with (V 0 4 0) by vring end.
    rewrite (norm_pyth 0 2 0 2), (norm_pyth 0 4 0 4) by lra. lra.
Qed.

Lemma rotx_mv : forall t x y z, mv (Rot2 (V 1 0 0) t) (V x y z) = V x (cos t * y - sin t * z) (sin t * y + cos t * z).
Proof. intros. rewrite <- RotX_Rot2. unfold RotX. vunf. cbn. f_equal; ring. Qed.
Lemma rotz_mv : forall t x y z, mv (Rot2 (V 0 0 1) t) (V x y z) = V (cos t * x - sin t * y) (sin t * x + cos t * y) z.
Proof. intros. rewrite <- RotZ_Rot2. unfold RotZ. vunf. cbn. f_equal; ring. Qed.

Lemma pk2_far_ex : exists id1 id2 e1 e2 p r rhs pt flag th1 th2 t1 t2,
  unit (e_axis e1) /\ unit (e_axis e2) /\ dot (e_axis e1) (e_axis e2) = 0 /\ e_origin e1 = r /\ e_origin e2 = r /\
  e_motion e1 = ROTATION /\ e_motion e2 = ROTATION /\ rigid rhs /\ rigid pt /\
  pk2_solve id1 id2 e1 e2 p r rhs pt = Some (flag, [[(id1, th1); (id2, th2)]; [(id1, th1); (id2, th2)]]) /\
  dist (move2 e1 e2 t1 t2 (fapp pt p)) (fapp rhs p) + 1 <= dist (move2 e1 e2 th1 th2 (fapp pt p)) (fapp rhs p).
Proof.
  set (ex := V 1 0 0). assert (U1 : unit ez) by apply unit_ez. assert (U2' : unit ex) by apply unit_ex.
  assert (D : dot ez ex = 0) by (unfold ez, ex; vunf; cbn; ring).
  assert (FP : fapp (ftrans (V 0 1 8)) (V 0 5 0) = V 0 6 8) by (pts; f_equal; ring).
  exists O, 1%nat, (E ROTATION ez vzero), (E ROTATION ex vzero), (V 0 5 0), vzero, (ftrans (V 0 1 8)), fid.
  do 3 eexists. exists 0, (atan2 (8 / 10) (6 / 10)). cbn [e_axis e_origin e_motion]. rewrite fapp_id, FP.
  split; [exact U1|]. split; [exact U2'|]. split; [exact D|]. do 4 (split; [reflexivity|]). split; [apply rigid_trans|]. split; [apply rigid_id|]. split.
  - replace (E ROTATION ez vzero) with (E ROTATION ez (vadd vzero (vscale 0 ez))) by (f_equal; unfold ez; vring).
    replace (E ROTATION ex vzero) with (E ROTATION ex (vadd vzero (vscale 0 ex))) by (f_equal; unfold ex; vring).
    rewrite pk2_unfold; auto; [|rewrite D; lra]. rewrite fapp_id, FP, D.
    replace (vsub (V 0 5 0) vzero) with (V 0 5 0) by vring. replace (vsub (V 0 6 8) vzero) with (V 0 6 8) by vring.
    replace (dot ez (V 0 6 8)) with 8 by (unfold ez; vunf; cbn; ring).
    replace (dot ex (V 0 5 0)) with 0 by (unfold ex; vunf; cbn; ring).
    replace (dot (V 0 5 0) (V 0 5 0)) with 25 by (vunf; cbn; ring).
    match goal with |- context [Rltb 0 ?x] => rewrite (proj2 (Rltb_false 0 x)) by lra end.
    rewrite andb_false_r. reflexivity.
  - match goal with |- _ <= dist (move2 _ _ ?a ?b _) _ => set (th1 := a); set (th2 := b) end.
    assert (T2 : th2 = PI / 2).
    { unfold th2. rewrite fapp_id. destruct na_half as (N1 & _). transitivity (normalizeAngle (PI / 2)); [|exact N1]. f_equal. unfold raw_angle.
      match goal with |- context [comb ?a ?b ?c ?d ?e] => replace (comb a b c d e) with (V 0 0 8) by (unfold comb, ez, ex; vunf; cbn; f_equal; field) end.
      replace (vsub (V 0 5 0) vzero) with (V 0 5 0) by vring.
      replace (perp ex (V 0 5 0)) with (V 0 5 0) by (unfold perp, ex; vring). replace (perp ex (V 0 0 8)) with (V 0 0 8) by (unfold perp, ex; vring).
      rewrite <- (atan2_up 40) by lra. f_equal; unfold ex; vunf; cbn; ring. }
    rewrite T2. clearbody th1. clear T2 th2. unfold move2. rewrite !move_rot by auto. unfold ez, ex.
    pose proof (atan2_polar (8 / 10) (6 / 10)) as (C & S).
    replace (6 / 10 * (6 / 10) + 8 / 10 * (8 / 10)) with (1 * 1) in C, S by field. rewrite sqrt_square in C, S by lra. rewrite Rmult_1_l in C, S.
    unfold dist. replace (vsub (V 0 5 0) vzero) with (V 0 5 0) by vring. rewrite !rotx_mv, C, S, sin_PI2, cos_PI2.
    match goal with |- norm (vsub (vadd vzero (mv _ (vsub (vadd vzero ?x) vzero))) _) + 1 <= norm (vsub (vadd vzero (mv _ (vsub (vadd vzero ?y) vzero))) _) =>
      replace (vsub (vadd vzero x) vzero) with (V 0 3 4) by (vunf; f_equal; field); replace (vsub (vadd vzero y) vzero) with (V 0 0 5) by (vunf; f_equal; ring) end.
    rewrite !rotz_mv, sin_0, cos_0.
    match goal with |- norm ?x + 1 <= norm ?y => replace x with (V 0 (-3) (-4)) by (vunf; f_equal; ring); replace y with (V 0 (-6) (-3)) by (vunf; f_equal; ring) end.
    rewrite (norm_pyth 0 (-3) (-4) 5) by lra. apply sq_le; [lra | apply norm_nonneg |]. rewrite norm_sqr. vunf. cbn. lra.
Qed.

Lemma two_nearest_ex :
  (exists id1 id2 e1 e2 p r rhs pt flag th1 th2 t1 t2,
    unit (e_axis e1) /\ unit (e_axis e2) /\ dot (e_axis e1) (e_axis e2) = 0 /\ e_origin e1 = r /\ e_origin e2 = r /\
    e_motion e1 = ROTATION /\ e_motion e2 = ROTATION /\ rigid rhs /\ rigid pt /\
    pk2_solve id1 id2 e1 e2 p r rhs pt = Some (flag, [[(id1, th1); (id2, th2)]; [(id1, th1); (id2, th2)]]) /\
    dist (move2 e1 e2 t1 t2 (fapp pt p)) (fapp rhs p) + 1 <= dist (move2 e1 e2 th1 th2 (fapp pt p)) (fapp rhs p)) /\
  (exists id1 id2 e1 e2 p rhs pt flag th1 th2 t1 t2,
    unit (e_axis e1) /\ e_axis e2 = e_axis e1 /\ e_motion e1 = ROTATION /\ e_motion e2 = ROTATION /\ rigid rhs /\ rigid pt /\
    pg4_solve id1 id2 e1 e2 p rhs pt = Some (flag, [[(id1, th1); (id2, th2)]; [(id1, th1); (id2, th2)]]) /\
    dot (e_axis e1) (vsub (fapp rhs p) (fapp pt p)) = 0 /\
    dist (move2 e1 e2 t1 t2 (fapp pt p)) (fapp rhs p) + 1 <= dist (move2 e1 e2 th1 th2 (fapp pt p)) (fapp rhs p)) /\
  (exists id1 id2 e1 e2 p rhs pt flag th11 th21 th12 th22 t1 t2,
    unit (e_axis e1) /\ e_axis e2 = e_axis e1 /\ e_motion e1 = ROTATION /\ e_motion e2 = ROTATION /\ rigid rhs /\ rigid pt /\
    pg4_solve id1 id2 e1 e2 p rhs pt = Some (flag, [[(id1, th11); (id2, th21)]; [(id1, th12); (id2, th22)]]) /\
    dot (e_axis e1) (vsub (fapp rhs p) (fapp pt p)) = 0 /\
    dist (move2 e1 e2 t1 t2 (fapp pt p)) (fapp rhs p) + 1 <= dist (move2 e1 e2 th11 th21 (fapp pt p)) (fapp rhs p) /\
    dist (move2 e1 e2 t1 t2 (fapp pt p)) (fapp rhs p) + 1 <= dist (move2 e1 e2 th12 th22 (fapp pt p)) (fapp rhs p)).
Proof. split; [exact pk2_far_ex|]. split; [exact pg4_near_ex | exact pg4_far_ex]. Qed.

(** ** examples of targets too near *)
Lemma ex_near :
  let a1 := V 0 0 1 in let o1 := vzero in let o2 := V 4 0 0 in let f := fapp fid (V 4 1 0) in let k := fapp (ftrans (V (-4) 0 0)) (V 4 1 0) in
  unit a1 /\ (-1) * (-1) = 1 /\ dot a1 (vsub k f) = 0 /\
  norm (perp a1 (vsub f o2)) + norm (perp a1 (vsub k o1)) + kdl_eps <= norm (perp a1 (vsub o2 o1)).
Proof.
  pose proof eps_small. cbv zeta. split; [apply unit_ez|]. split; [ring|]. rewrite fapp_id.
  assert (FP : fapp (ftrans (V (-4) 0 0)) (V 4 1 0) = V 0 1 0) by (pts; f_equal; ring). rewrite FP. split; [vunf; cbn; ring|].
  replace (perp (V 0 0 1) (vsub (V 4 0 0) vzero)) with (V 4 0 0) by (unfold perp; vring).
  replace (perp (V 0 0 1) (vsub (V 4 1 0) (V 4 0 0))) with (V 0 1 0) by (unfold perp; vring).
  replace (perp (V 0 0 1) (vsub (V 0 1 0) vzero)) with (V 0 1 0) by (unfold perp; vring).
  rewrite norm_010, (norm_pyth 4 0 0 4) by lra. lra.
Qed.
Lemma ex_aligned :
  let a1 := V 0 0 1 in let o1 := vzero in let o2 := V 4 0 0 in let f := fapp fid (V 5 0 0) in let k := fapp (ftrans (V (-5) 1 0)) (V 5 0 0) in
  unit a1 /\ dot a1 (vsub k f) = 0 /\ dot a1 (cross (vsub f o2) (vsub o2 o1)) = 0 /\
  norm (perp a1 (vsub f o2)) + norm (perp a1 (vsub k o1)) + kdl_eps <= norm (perp a1 (vsub o2 o1)).
Proof.
  pose proof eps_small. cbv zeta. split; [apply unit_ez|]. rewrite fapp_id.
  assert (FP : fapp (ftrans (V (-5) 1 0)) (V 5 0 0) = V 0 1 0) by (pts; f_equal; ring). rewrite FP. split; [vunf; cbn; ring|]. split; [vunf; cbn; ring|].
  replace (perp (V 0 0 1) (vsub (V 4 0 0) vzero)) with (V 4 0 0) by (unfold perp; vring).
  replace (perp (V 0 0 1) (vsub (V 5 0 0) (V 4 0 0))) with (V 1 0 0) by (unfold perp; vring).
  replace (perp (V 0 0 1) (vsub (V 0 1 0) vzero)) with (V 0 1 0) by (unfold perp; vring).
  rewrite norm_010, (norm_pyth 4 0 0 4), (norm_pyth 1 0 0 1) by lra. lra.
Qed.
