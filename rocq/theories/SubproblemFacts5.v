(** Soundness of the flags of the two-joint subproblems (PK2, PG4): what a target reported
    reachable is good for. *)
From Coq Require Import Reals Lra List Bool Psatz.
From Verif Require Import Kdl KdlFacts Screw ScrewFacts Trig TrigFacts Subproblems SubproblemFacts SubproblemFacts2 SubproblemFacts3 SubproblemFacts4.
Import ListNotations.
Open Scope R_scope.

Lemma raw_angle_near : forall a u v, unit a -> dot a u = dot a v ->
  norm (vsub (mv (Rot2 a (raw_angle a u v)) u) v) = Rabs (norm (perp a u) - norm (perp a v)).
Proof.
  intros a u v U H. rewrite <- (rot_to_dist a (perp a u) (perp a v) U (perp_dot a u U) (perp_dot a v U)).
  fold (raw_angle a u v). f_equal. rewrite rot_split by auto. rewrite (perp_split a v) at 2. rewrite H. vlin.
Qed.

(** a pair of rotations going near a given intermediate point *)
Lemma pair_near : forall a1 o1 a2 o2 f k c, unit a1 -> unit a2 ->
  dot a2 (vsub f o2) = dot a2 (vsub c o2) -> dot a1 (vsub c o1) = dot a1 (vsub k o1) ->
  let th1 := normalizeAngle (raw_angle a1 (vsub c o1) (vsub k o1)) in
  let th2 := normalizeAngle (raw_angle a2 (vsub f o2) (vsub c o2)) in
  - PI < th1 <= PI /\ - PI < th2 <= PI /\
  dist (move2 (E ROTATION a1 o1) (E ROTATION a2 o2) th1 th2 f) k
    <= Rabs (norm (perp a2 (vsub f o2)) - norm (perp a2 (vsub c o2)))
       + Rabs (norm (perp a1 (vsub c o1)) - norm (perp a1 (vsub k o1)))
       + kdl_eps * (norm (perp a2 (vsub f o2)) + norm (perp a1 (vsub c o1))).
Proof.
  intros a1 o1 a2 o2 f k c U1 U2 A2 A1 th1 th2.
  destruct (snap_rot a2 _ (vsub f o2) U2 (raw_range a2 (vsub f o2) (vsub c o2))) as (B2 & _ & _).
  destruct (snap_rot a1 _ (vsub c o1) U1 (raw_range a1 (vsub c o1) (vsub k o1))) as (B1 & _ & _).
  pose proof (snap_rot_perp a2 _ (vsub f o2) U2 (raw_range a2 (vsub f o2) (vsub c o2))) as E2.
  pose proof (snap_rot_perp a1 _ (vsub c o1) U1 (raw_range a1 (vsub c o1) (vsub k o1))) as E1.
  pose proof (raw_angle_near a2 (vsub f o2) (vsub c o2) U2 A2) as N2.
  pose proof (raw_angle_near a1 (vsub c o1) (vsub k o1) U1 A1) as N1.
  fold th2 in B2, E2. fold th1 in B1, E1.
  assert (D2 : norm (vsub (mv (Rot2 a2 th2) (vsub f o2)) (vsub c o2)) <=
     kdl_eps * norm (perp a2 (vsub f o2)) + Rabs (norm (perp a2 (vsub f o2)) - norm (perp a2 (vsub c o2)))).
  { eapply Rle_trans; [apply (norm_triangle3 _ (mv (Rot2 a2 (raw_angle a2 (vsub f o2) (vsub c o2))) (vsub f o2)))|]. lra. }
  assert (D1 : norm (vsub (mv (Rot2 a1 th1) (vsub c o1)) (vsub k o1)) <=
     kdl_eps * norm (perp a1 (vsub c o1)) + Rabs (norm (perp a1 (vsub c o1)) - norm (perp a1 (vsub k o1)))).
  { eapply Rle_trans; [apply (norm_triangle3 _ (mv (Rot2 a1 (raw_angle a1 (vsub c o1) (vsub k o1))) (vsub c o1)))|]. lra. }
  split; [lra|]. split; [lra|].
  unfold move2, dist. eapply Rle_trans; [apply (norm_triangle3 _ (move1 (E ROTATION a1 o1) th1 c))|].
  assert (X2 : norm (vsub (move1 (E ROTATION a1 o1) th1 (move1 (E ROTATION a2 o2) th2 f)) (move1 (E ROTATION a1 o1) th1 c))
    = norm (vsub (mv (Rot2 a2 th2) (vsub f o2)) (vsub c o2))).
  { unfold move1. rewrite fapp_sub. rewrite norm_rot by (apply (asFrame_rigid (E ROTATION a1 o1)); auto).
    fold (move1 (E ROTATION a2 o2) th2 f). rewrite move_rot by auto. f_equal. vlin. }
  assert (X1 : vsub (move1 (E ROTATION a1 o1) th1 c) k = vsub (mv (Rot2 a1 th1) (vsub c o1)) (vsub k o1))
    by (rewrite move_rot by auto; set (q := mv _ _); destruct q; vlin).
  rewrite X2, X1. lra.
Qed.

Lemma sq_diff : forall x y, 0 <= x -> 0 <= y -> x <= y -> (x - y) * (x - y) <= y * y - x * x.
Proof. intros. assert (0 <= x * (y - x)) by (apply Rmult_le_pos; lra). lra. Qed.
Lemma sqrt_close : forall x y e, 0 <= x -> 0 <= y -> 0 <= e -> Rabs (x * x - y * y) <= e -> Rabs (x - y) <= sqrt e.
Proof.
  intros x y e X Y Ee H. rewrite <- (sqrt_Rsqr (Rabs (x - y))) by apply Rabs_pos.
  apply sqrt_le_1; [apply Rle_0_sqr | exact Ee |].
  rewrite <- Rsqr_abs. unfold Rsqr. eapply Rle_trans; [|exact H].
  destruct (Rle_dec x y) as [L|L].
  - eapply Rle_trans; [apply sq_diff; auto|]. rewrite <- Rabs_Ropp. eapply Rle_trans; [|apply Rle_abs]. lra.
  - replace ((x - y) * (x - y)) with ((y - x) * (y - x)) by ring.
    eapply Rle_trans; [apply sq_diff; lra|]. apply Rle_abs.
Qed.

(** ** PK2 *)
Lemma pk2_flag_sound : forall a1 a2, unit a1 -> unit a2 -> 1 - dot a1 a2 * dot a1 a2 <> 0 ->
  forall id1 id2 s1 s2 p r rhs pt sols,
  let e1 := E ROTATION a1 (vadd r (vscale s1 a1)) in
  let e2 := E ROTATION a2 (vadd r (vscale s2 a2)) in
  pk2_solve id1 id2 e1 e2 p r rhs pt = Some (true, sols) ->
  exists th11 th21 th12 th22, sols = [[(id1, th11); (id2, th21)]; [(id1, th12); (id2, th22)]] /\
    dist (move2 e1 e2 th11 th21 (fapp pt p)) (fapp rhs p) <= sqrt kdl_eps + kdl_eps * (2 + 2 * dist (fapp pt p) r) /\
    dist (move2 e1 e2 th12 th22 (fapp pt p)) (fapp rhs p) <= sqrt kdl_eps + kdl_eps * (2 + 2 * dist (fapp pt p) r).
Proof.
  intros a1 a2 U1 U2 NW id1 id2 s1 s2 p r rhs pt sols e1 e2. unfold e1, e2.
  rewrite pk2_unfold by auto.
  set (d := dot a1 a2) in *. set (W := 1 - d * d) in *.
  set (f := fapp pt p). set (k := fapp rhs p). set (u := vsub f r). set (v := vsub k r).
  set (al := (dot a1 v - d * dot a2 u) / W). set (be := (dot a2 u - d * dot a1 v) / W).
  set (g2 := (dot u u - al * al - be * be - 2 * al * be * d) / W).
  pose proof kdl_eps_pos as EP.
  assert (WP : 0 < W) by (apply (W_pos a1 a2); auto).
  assert (W1 : W <= 1) by (unfold W; nra).
  assert (EQ : forall ga e, 0 <= e <= kdl_eps -> Rabs (ga * ga - g2) <= e ->
    Rabs (norm (perp a1 (comb a1 a2 al be ga)) - norm (perp a1 v)) < kdl_eps ->
    dist (move2 (E ROTATION a1 (vadd r (vscale s1 a1))) (E ROTATION a2 (vadd r (vscale s2 a2)))
       (normalizeAngle (raw_angle a1 (comb a1 a2 al be ga) v)) (normalizeAngle (raw_angle a2 u (comb a1 a2 al be ga))) f) k
      <= sqrt kdl_eps + kdl_eps * (2 + 2 * dist f r)).
  { intros ga e Ee G Fl. set (z := comb a1 a2 al be ga) in *.
    assert (Z1 : dot a1 z = dot a1 v) by (unfold z; rewrite comb_dot1 by auto; fold d; unfold al, be; field_simplify; auto; unfold W; field; fold W; auto).
    assert (Z2 : dot a2 u = dot a2 z) by (unfold z; rewrite comb_dot2 by auto; fold d; unfold al, be; field_simplify; auto; unfold W; field; fold W; auto).
    assert (Z3 : dot z z = dot u u + (ga * ga - g2) * W).
    { unfold z. rewrite comb_norm by auto. fold d. fold W. unfold g2. field; auto. }
    assert (VZ : vsub (vadd r z) r = z) by (destruct z; vlin).
    destruct (pair_near a1 r a2 r f k (vadd r z) U1 U2) as (_ & _ & D); fold u v; rewrite ?VZ; auto.
    fold u v in D. rewrite VZ in D. unfold move2 in D |- *. rewrite !move_origin by auto.
    eapply Rle_trans; [exact D|].
    assert (GW : Rabs ((ga * ga - g2) * W) <= e).
    { rewrite Rabs_mult, (Rabs_pos_eq W) by lra. pose proof (Rabs_pos (ga * ga - g2)). nra. }
    assert (N2 : Rabs (norm (perp a2 u) - norm (perp a2 z)) <= sqrt kdl_eps).
    { apply sqrt_close; try apply norm_nonneg; [lra|]. rewrite !norm_sqr, !perp_norm2, Z3, Z2 by auto.
      rewrite <- Rabs_Ropp. match goal with |- Rabs ?x <= _ => replace x with ((ga * ga - g2) * W) by ring end. lra. }
    assert (P2 : norm (perp a2 u) <= dist f r) by (apply perp_le; auto).
    assert (P1 : norm (perp a1 z) <= dist f r + 1).
    { eapply Rle_trans; [apply perp_le; auto|]. unfold dist. fold u.
      apply norm_le_sqr; [pose proof (norm_nonneg u); lra|]. rewrite Z3.
      assert (norm u * norm u = dot u u) by apply norm_sqr. pose proof (norm_nonneg u).
      assert ((ga * ga - g2) * W <= 1). { eapply Rle_trans; [apply Rle_abs|]. unfold kdl_eps in *; lra. } nra. }
    assert (kdl_eps * (norm (perp a2 u) + norm (perp a1 z)) <= kdl_eps * (2 * dist f r + 1)) by (apply Rmult_le_compat_l; lra).
    lra. }
  destruct (Equal g2 0) eqn:Z; cbn [negb andb].
  - apply Equal_true in Z. rewrite Rminus_0_r in Z. intro H.
    destruct (Equal (norm (perp a1 (comb a1 a2 al be 0))) (norm (perp a1 v))) eqn:Fl; [|discriminate].
    apply Equal_true in Fl. injection H as <-.
    assert (X := EQ 0 kdl_eps ltac:(lra)). specialize (X ltac:(replace (0 * 0 - g2) with (- g2) by ring; rewrite Rabs_Ropp; lra) Fl).
    unfold pk2_pair. do 4 eexists. split; [reflexivity|]. split; exact X.
  - destruct (Rltb 0 g2) eqn:Pg; cbn [negb andb]; [|discriminate].
    apply Rltb_true in Pg. intro H.
    destruct (Equal (norm (perp a1 (comb a1 a2 al be (- sqrt g2)))) (norm (perp a1 v))) eqn:Fl; [|discriminate].
    apply Equal_true in Fl. injection H as <-.
    assert (SQ : sqrt g2 * sqrt g2 = g2) by (apply sqrt_sqrt; lra).
    assert (X1 := EQ (- sqrt g2) 0 ltac:(lra)). specialize (X1 ltac:(replace (- sqrt g2 * - sqrt g2 - g2) with 0 by lra; rewrite Rabs_R0; lra) Fl).
    assert (SAME : norm (perp a1 (comb a1 a2 al be (sqrt g2))) = norm (perp a1 (comb a1 a2 al be (- sqrt g2)))).
    { apply norm_eq_iff. rewrite !perp_norm2, !comb_dot1, !comb_norm by auto. ring. }
    rewrite <- SAME in Fl.
    assert (X2 := EQ (sqrt g2) 0 ltac:(lra)). specialize (X2 ltac:(replace (sqrt g2 * sqrt g2 - g2) with 0 by lra; rewrite Rabs_R0; lra) Fl).
    unfold pk2_pair. do 4 eexists. split; [reflexivity|]. split; [exact X1 | exact X2].
Qed.

(** ** PG4 *)
Lemma pg4_flag_plane : forall id1 id2 a1 o1 a2 o2 p s rhs pt sols,
  unit a1 -> s * s = 1 -> a2 = vscale s a1 ->
  let f := fapp pt p in let k := fapp rhs p in
  kdl_eps <= norm (perp a1 (vsub o2 o1)) ->
  kdl_eps <= norm (perp a1 (vsub f o2)) + norm (perp a1 (vsub k o1)) - norm (perp a1 (vsub o2 o1)) ->
  pg4_solve id1 id2 (E ROTATION a1 o1) (E ROTATION a2 o2) p rhs pt = Some (true, sols) ->
  Rabs (dot a1 (vsub k f)) < 2 * kdl_eps.
Proof.
  intros id1 id2 a1 o1 a2 o2 p s rhs pt sols U1 SS A2 f k CN G. pose proof kdl_eps_pos as EP.
  unfold pg4_solve. rewrite (computeNormal_eq a1 o1 (E ROTATION a2 o2) U1) by exact CN.
  cbn [e_axis e_origin]. fold f k. rewrite !perp_eq.
  set (u := vsub f o2) in *. set (v := vsub k o1) in *. set (D := perp a1 (vsub o2 o1)) in *.
  set (x := vsub (vsub (vadd o2 u) (perp a1 u)) (vsub (vadd o1 v) (perp a1 v))).
  destruct (EqualV x D) eqn:SP.
  - intros _. set (t := dot a1 (vsub k f)).
    assert (XD : x = vsub D (vscale t a1)).
    { unfold x, D, t, perp. replace (dot a1 (vsub k f)) with (dot a1 v - dot a1 u + dot a1 (vsub o1 o2)).
      2:{ unfold u, v. rewrite !dot_sub_r. ring. }
      rewrite !dot_sub_r. vlin. }
    apply EqualV_true in SP. rewrite XD in SP. unfold vsub, vscale in SP. cbn [vx vy vz] in SP.
    destruct SP as (S1 & S2 & S3).
    replace (vx D - t * vx a1 - vx D) with (- (t * vx a1)) in S1 by ring.
    replace (vy D - t * vy a1 - vy D) with (- (t * vy a1)) in S2 by ring.
    replace (vz D - t * vz a1 - vz D) with (- (t * vz a1)) in S3 by ring.
    rewrite Rabs_Ropp in S1, S2, S3. apply Rabs_def2 in S1, S2, S3.
    assert (TT : t * t = (t * vx a1) * (t * vx a1) + (t * vy a1) * (t * vy a1) + (t * vz a1) * (t * vz a1)).
    { transitivity (t * t * dot a1 a1); [rewrite U1; ring | vunf; ring]. }
    apply Rsqr_incrst_0; [|apply Rabs_pos|lra]. rewrite <- Rsqr_abs. unfold Rsqr. rewrite TT.
    clear - S1 S2 S3 EP.
    assert (Q : forall y e, - e < y < e -> y * y < e * e) by (intros; nra).
    pose proof (Q _ _ (conj (proj2 S1) (proj1 S1))). pose proof (Q _ _ (conj (proj2 S2) (proj1 S2))).
    pose proof (Q _ _ (conj (proj2 S3) (proj1 S3))). nra.
  - cbn [andb]. rewrite (proj2 (Equal_false _ 0)) by (rewrite Rminus_0_r, Rabs_pos_eq; lra).
    rewrite (proj2 (Rltb_true 0 _)) by lra. cbn [negb andb]. unfold fdiv.
    rewrite (proj2 (Reqb_false _ 0)) by lra. rewrite (proj2 (Reqb_false (2 * _) 0)) by lra. cbn [obind]. discriminate.
Qed.

Lemma pg4_flag_sound : forall id1 id2 a1 o1 a2 o2 p s rhs pt sols,
  unit a1 -> s * s = 1 -> a2 = vscale s a1 ->
  let f := fapp pt p in let k := fapp rhs p in
  let e1 := E ROTATION a1 o1 in let e2 := E ROTATION a2 o2 in
  let nu := norm (perp a1 (vsub f o2)) in let nv := norm (perp a1 (vsub k o1)) in
  kdl_eps <= norm (perp a1 (vsub o2 o1)) ->
  kdl_eps <= nu + nv - norm (perp a1 (vsub o2 o1)) ->
  dot a1 (vsub k f) = 0 ->
  pg4_solve id1 id2 e1 e2 p rhs pt = Some (true, sols) ->
  exists th11 th21 th12 th22, sols = [[(id1, th11); (id2, th21)]; [(id1, th12); (id2, th22)]] /\
    dist (move2 e1 e2 th11 th21 f) k <= sqrt (kdl_eps * (2 * nv + 1)) + kdl_eps * (2 + nu + nv) /\
    dist (move2 e1 e2 th12 th22 f) k <= sqrt (kdl_eps * (2 * nv + 1)) + kdl_eps * (2 + nu + nv).
Proof.
  intros id1 id2 a1 o1 a2 o2 p s rhs pt sols U1 SS A2 f k e1 e2 nu nv CN G PL. pose proof kdl_eps_pos as EP.
  assert (U2 : unit a2) by (apply (U2 a1 a2 s); auto).
  unfold e1, e2. rewrite (pg4_unfold id1 id2 a1 o1 a2 o2 p s rhs pt U1 SS A2 CN).
  2:{ fold f k. replace (dot a1 (vsub f o2) - dot a1 (vsub k o1)) with (dot a1 (vsub o1 o2) - dot a1 (vsub k f)) by (rewrite !dot_sub_r; ring). lra. }
  fold f k. fold nu nv. set (u := vsub f o2) in *. set (v := vsub k o1) in *. set (D := perp a1 (vsub o2 o1)) in *. set (cn := norm D) in *.
  rewrite (proj2 (Equal_false _ 0)) by (rewrite Rminus_0_r, Rabs_pos_eq; lra).
  rewrite (proj2 (Rltb_true 0 _)) by lra. cbn [negb andb].
  set (oa := vscale (1 / cn) D). set (oh := cross a1 oa). set (aa := (cn * cn - nu * nu + nv * nv) / (2 * cn)).
  set (h := sqrt (Rabs (nv * nv - aa * aa))). set (c1 := vsub (vadd o1 v) (perp a1 v)).
  intro H. destruct (Equal _ nv) eqn:Fl in H; [|discriminate]. apply Equal_true in Fl. injection H as <-.
  assert (DD : dot D D = cn * cn) by (unfold cn; rewrite norm_sqr; reflexivity).
  assert (aD : dot a1 D = 0) by (apply perp_dot; auto).
  assert (OA : dot oa oa = 1) by (unfold oa; rewrite dot_scale_l, dot_scale_r, DD; field; lra).
  assert (aoa : dot a1 oa = 0) by (unfold oa; rewrite dot_scale_r, aD; ring).
  assert (OHOA : dot oh oa = 0) by (unfold oh; rewrite dot_comm, dot_cross_r; reflexivity).
  assert (OH : dot oh oh = 1) by (unfold oh; rewrite lagrange, U1, OA, aoa; ring).
  assert (aoh : dot a1 oh = 0) by (unfold oh; apply dot_cross_l).
  assert (HP : 0 <= h) by apply sqrt_pos.
  assert (HH : h * h = Rabs (nv * nv - aa * aa)) by (unfold h; apply sqrt_sqrt, Rabs_pos).
  assert (NVP : 0 <= nv) by apply norm_nonneg. assert (NUP : 0 <= nu) by apply norm_nonneg.
  assert (KEY : forall g, g * g = h * h -> let cc := vadd (vadd c1 (vscale aa oa)) (vscale g oh) in
     dot a2 u = dot a2 (vsub cc o2) /\ dot a1 (vsub cc o1) = dot a1 v /\
     norm (perp a1 (vsub cc o1)) * norm (perp a1 (vsub cc o1)) = aa * aa + h * h /\
     norm (perp a1 (vsub cc o2)) * norm (perp a1 (vsub cc o2)) = nu * nu - nv * nv + (aa * aa + h * h)).
  { intros g Hg cc.
    assert (Q1 : vsub cc o1 = vadd (vscale (dot a1 v) a1) (vadd (vscale aa oa) (vscale g oh))) by (unfold cc, c1, perp; vlin).
    set (q := vadd (vscale aa oa) (vscale g oh)) in *.
    assert (aq : dot a1 q = 0) by (unfold q; rewrite dot_add_r, !dot_scale_r, aoa, aoh; ring).
    assert (qq : dot q q = aa * aa + h * h).
    { unfold q. rewrite dot_add_l, !dot_add_r, !dot_scale_l, !dot_scale_r, OA, OH, OHOA, (dot_comm oa oh), OHOA. lra. }
    assert (qoa : dot q oa = aa) by (unfold q; rewrite dot_add_l, !dot_scale_l, OA, OHOA; ring).
    assert (qD : dot q D = aa * cn).
    { rewrite <- qoa. unfold oa. rewrite dot_scale_r. field. lra. }
    assert (B1 : dot a1 (vsub cc o1) = dot a1 v) by (rewrite Q1, dot_add_r, dot_scale_r, U1, aq; ring).
    assert (P1 : perp a1 (vsub cc o1) = q).
    { unfold perp. rewrite B1, Q1. vlin. }
    assert (P2 : perp a1 (vsub cc o2) = vsub q D).
    { replace (vsub cc o2) with (vsub (vsub cc o1) (vsub o2 o1)) by vlin. rewrite perp_sub, P1. reflexivity. }
    split; [|split; [exact B1|split]].
    - apply (dot_a2 a1 a2 s); auto. replace (vsub cc o2) with (vsub (vsub cc o1) (vsub o2 o1)) by vlin. rewrite dot_sub_r, B1.
      unfold u, v. rewrite !dot_sub_r. rewrite dot_sub_r in PL. lra.
    - rewrite norm_sqr, P1. exact qq.
    - rewrite norm_sqr, P2, !dot_sub_l, !dot_sub_r, (dot_comm D q), qq, qD, DD. unfold aa at 4 5. unfold aa. field. lra. }
  assert (RES : forall g, g * g = h * h -> let cc := vadd (vadd c1 (vscale aa oa)) (vscale g oh) in
    dist (move2 (E ROTATION a1 o1) (E ROTATION a2 o2) (normalizeAngle (raw_angle a1 (vsub cc o1) v)) (normalizeAngle (raw_angle a2 u (vsub cc o2))) f) k
      <= sqrt (kdl_eps * (2 * nv + 1)) + kdl_eps * (2 + nu + nv)).
  { intros g Hg cc. destruct (KEY g Hg) as (K1 & K2 & K3 & K4). fold cc in K1, K2, K3, K4.
    destruct (pair_near a1 o1 a2 o2 f k cc U1 U2 K1 K2) as (_ & _ & X). fold u v in X.
    eapply Rle_trans; [exact X|]. rewrite !(perp_a2 a1 a2 s) by auto. fold nu nv.
    destruct (KEY h eq_refl) as (_ & _ & K3' & _).
    set (m := norm (perp a1 (vsub (vadd (vadd c1 (vscale aa oa)) (vscale h oh)) o1))) in *.
    assert (SAME : norm (perp a1 (vsub cc o1)) = m).
    { apply Rsqr_inj; try apply norm_nonneg. unfold Rsqr. rewrite K3, K3'. reflexivity. }
    rewrite SAME in *.
    assert (MP : 0 <= m) by apply norm_nonneg.
    assert (X2 : Rabs (nu - norm (perp a1 (vsub cc o2))) <= sqrt (kdl_eps * (2 * nv + 1))).
    { apply sqrt_close; auto; [apply norm_nonneg | apply Rmult_le_pos; lra |]. rewrite K4, <- K3'.
      replace (nu * nu - (nu * nu - nv * nv + m * m)) with (- ((m - nv) * (m + nv))) by ring.
      rewrite Rabs_Ropp, Rabs_mult. apply Rmult_le_compat; try apply Rabs_pos; [lra|].
      apply Rabs_def2 in Fl. rewrite Rabs_pos_eq by lra. unfold kdl_eps in *. lra. }
    apply Rabs_def2 in Fl as F2. 
    assert (kdl_eps * (nu + m) <= kdl_eps * (nu + nv + 1)) by (apply Rmult_le_compat_l; unfold kdl_eps in *; lra).
    lra. }
  unfold pg4_pair. do 4 eexists. split; [reflexivity|]. split.
  - exact (RES h eq_refl).
  - assert (N : vsub (vadd c1 (vscale aa oa)) (vscale h oh) = vadd (vadd c1 (vscale aa oa)) (vscale (- h) oh)) by vlin.
    fold f k u v oa oh aa c1. fold h. rewrite N. apply RES. ring.
Qed.
