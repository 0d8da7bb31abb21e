(** Proofs about the two parallel rotations (PG4). *)
From Coq Require Import Reals Lra List Bool Psatz.
From Verif Require Import Kdl KdlFacts Screw ScrewFacts Trig TrigFacts Subproblems SubproblemFacts SubproblemFacts2 SubproblemFacts3.
Import ListNotations.
Open Scope R_scope.

Section PG4.
  Variables (id1 id2 : nat) (a1 o1 a2 o2 p : vec) (s : R) (rhs pt : frame).
  Hypothesis U1 : unit a1.
  Hypothesis SS : s * s = 1.
  Hypothesis A2 : a2 = vscale s a1.
  Let f := fapp pt p.
  Let k := fapp rhs p.
  Let e1 := E ROTATION a1 o1.
  Let e2 := E ROTATION a2 o2.
  Let u := vsub f o2.
  Let v := vsub k o1.
  Let D := perp a1 (vsub o2 o1).
  Let cn := norm D.
  Let nu := norm (perp a1 u).
  Let nv := norm (perp a1 v).
  Hypothesis CN : kdl_eps <= cn.

  Lemma U2 : unit a2.
  Proof. unfold unit. rewrite A2, dot_scale_l, dot_scale_r, U1. lra. Qed.
  Lemma perp_a2 : forall x, perp a2 x = perp a1 x.
  Proof.
    intro x. unfold perp. rewrite A2, dot_scale_l, vscale_vscale.
    replace (s * dot a1 x * s) with (dot a1 x * (s * s)) by ring. rewrite SS, Rmult_1_r. reflexivity.
  Qed.
  Lemma dot_a2 : forall x y, dot a2 x = dot a2 y <-> dot a1 x = dot a1 y.
  Proof.
    intros. rewrite A2, !dot_scale_l. split; intro H; [|rewrite H; auto].
    assert (s <> 0) by (intro Z; rewrite Z in SS; lra). apply Rmult_eq_reg_l with s; auto.
  Qed.

  Let oa := vscale (1 / cn) D.
  Let oh := cross a1 oa.
  Let aa := (cn * cn - nu * nu + nv * nv) / (2 * cn).
  Let h := sqrt (Rabs (nv * nv - aa * aa)).
  Let c1 := vsub (vadd o1 v) (perp a1 v).

  Definition pg4_pair (c : vec) : local_solution :=
    [(id1, normalizeAngle (raw_angle a1 (vsub c o1) v)); (id2, normalizeAngle (raw_angle a2 u (vsub c o2)))].

  Lemma pg4_unfold : dot a1 (vsub f o2) - dot a1 (vsub k o1) = dot a1 (vsub o1 o2) ->
    pg4_solve id1 id2 e1 e2 p rhs pt =
    if negb (Equal (nu + nv - cn) 0) && Rltb 0 (nu + nv - cn)
    then Some (Equal (norm (perp a1 (vsub (vadd (vadd c1 (vscale aa oa)) (vscale h oh)) o1))) nv,
       [pg4_pair (vadd (vadd c1 (vscale aa oa)) (vscale h oh)); pg4_pair (vsub (vadd c1 (vscale aa oa)) (vscale h oh))])
    else Some (Equal (nu + nv - cn) 0,
       let l := [(id1, normalizeAngle (atan2 (dot a1 (cross D (perp a1 v))) (dot D (perp a1 v))));
                 (id2, normalizeAngle (atan2 (dot a2 (cross (perp a1 u) D)) (dot (vneg D) (perp a1 u))))] in [l; l]).
  Proof.
    intro PL. pose proof kdl_eps_pos as EP. unfold pg4_solve, e1.
    rewrite (computeNormal_eq a1 o1 e2 U1) by exact CN.
    unfold e2. cbn [e_axis e_origin]. fold f k. fold u v in PL |- *. rewrite !perp_eq. fold D. fold c1.
    assert (CD : vsub (vsub (vadd o2 u) (perp a1 u)) c1 = D).
    { unfold c1, D. replace (vsub (vadd o2 u) (perp a1 u)) with (vadd o2 (vscale (dot a1 u) a1)) by (unfold perp; vlin).
      replace (vsub (vadd o1 v) (perp a1 v)) with (vadd o1 (vscale (dot a1 v) a1)) by (unfold perp; vlin).
      replace (dot a1 u) with (dot a1 v - dot a1 (vsub o2 o1)).
      2:{ replace (dot a1 (vsub o2 o1)) with (- dot a1 (vsub o1 o2)) by (rewrite !dot_sub_r; ring). lra. }
      unfold perp. vlin. }
    rewrite CD, EqualV_refl. fold cn nu nv.
    destruct (negb (Equal (nu + nv - cn) 0) && Rltb 0 (nu + nv - cn)); [|reflexivity].
    unfold fdiv. rewrite (proj2 (Reqb_false cn 0)) by lra. rewrite (proj2 (Reqb_false (2 * cn) 0)) by lra.
    cbn [obind andb]. rewrite ?perp_eq. unfold pow2. fold aa. fold h. fold oa. fold oh.
    unfold pg4_pair, raw_angle. rewrite !perp_a2. reflexivity.
  Qed.

  Lemma pg4_main : forall t1 t2, move2 e1 e2 t1 t2 f = k -> kdl_eps <= nu + nv - cn ->
    exists th11 th21 th12 th22,
      pg4_solve id1 id2 e1 e2 p rhs pt = Some (true, [[(id1, th11); (id2, th21)]; [(id1, th12); (id2, th22)]]) /\
      reaches2 e1 e2 f k th11 th21 /\ reaches2 e1 e2 f k th12 th22 /\
      (((th21 <> PI -> move1 e2 th21 f = move1 e2 t2 f) /\ dist (move1 e2 th21 f) (move1 e2 t2 f) <= kdl_eps * dist f (e_origin e2)) \/
       ((th22 <> PI -> move1 e2 th22 f = move1 e2 t2 f) /\ dist (move1 e2 th22 f) (move1 e2 t2 f) <= kdl_eps * dist f (e_origin e2))).
  Proof.
    intros t1 t2 H G. pose proof kdl_eps_pos as EP.
    set (c := move1 e2 t2 f) in *.
    assert (C2 : vsub c o2 = mv (Rot2 a2 t2) u) by (apply move_rot_sub, U2).
    assert (K1 : v = mv (Rot2 a1 t1) (vsub c o1)).
    { unfold v. rewrite <- H. unfold move2. fold c. apply move_rot_sub; auto. }
    assert (AU : dot a1 (vsub c o2) = dot a1 u).
    { apply dot_a2. rewrite C2. apply rot_axis_dot, U2. }
    assert (AV : dot a1 v = dot a1 (vsub c o1)) by (rewrite K1; apply rot_axis_dot; auto).
    assert (NU : dot (vsub c o2) (vsub c o2) = dot u u) by (rewrite C2; apply dot_rot, Rot2_rot, U2).
    assert (NV : dot v v = dot (vsub c o1) (vsub c o1)) by (rewrite K1; apply dot_rot, Rot2_rot; auto).
    rewrite pg4_unfold.
    2:{ fold u v. rewrite <- AU, AV, <- dot_sub_r. f_equal. vlin. }
    rewrite (proj2 (Equal_false _ 0)) by (rewrite Rminus_0_r, Rabs_pos_eq; lra).
    rewrite (proj2 (Rltb_true 0 _)) by lra. cbn [negb andb].
    (* the true intermediate point in the frame (oa, oh) *)
    set (w := perp a1 (vsub c o1)).
    assert (WV : dot w w = nv * nv).
    { unfold nv, w. rewrite norm_sqr, !perp_norm2, AV, NV by auto. reflexivity. }
    assert (WD : dot (vsub w D) (vsub w D) = nu * nu).
    { unfold w, D. rewrite <- perp_sub. replace (vsub (vsub c o1) (vsub o2 o1)) with (vsub c o2) by vlin.
      unfold nu. rewrite norm_sqr, !perp_norm2, AU, NU by auto. reflexivity. }
    assert (DD : dot D D = cn * cn) by (unfold cn; rewrite norm_sqr; reflexivity).
    assert (aD : dot a1 D = 0) by (apply perp_dot; auto).
    assert (aw : dot a1 w = 0) by (apply perp_dot; auto).
    assert (OA : dot oa oa = 1).
    { unfold oa. rewrite dot_scale_l, dot_scale_r, DD. field. lra. }
    assert (aoa : dot a1 oa = 0) by (unfold oa; rewrite dot_scale_r, aD; ring).
    assert (AA : aa = dot w oa).
    { unfold aa, oa. rewrite dot_scale_r, <- DD, <- WD, <- WV.
      rewrite !dot_sub_l, !dot_sub_r, (dot_comm D w). field. lra. }
    assert (OHOA : dot oh oa = 0) by (unfold oh; rewrite dot_comm, dot_cross_r; reflexivity).
    assert (OH : dot oh oh = 1).
    { unfold oh. rewrite lagrange, U1, OA, aoa. ring. }
    assert (aoh : dot a1 oh = 0) by (unfold oh; apply dot_cross_l).
    assert (WDEC : w = vadd (vscale aa oa) (vscale (dot w oh) oh)).
    { pose proof (plane_decomp a1 oa w U1 aoa aw) as PD. rewrite OA, vscale_1 in PD. fold oh in PD.
      rewrite PD at 1. f_equal. { rewrite AA, (dot_comm oa w). reflexivity. }
      f_equal. unfold oh. vring. }
    assert (HH : nv * nv - aa * aa = dot w oh * dot w oh).
    { rewrite <- WV. set (g := dot w oh) in WDEC |- *. rewrite WDEC. rewrite dot_add_l, !dot_add_r, !dot_scale_l, !dot_scale_r, OA, OH, OHOA, (dot_comm oa oh), OHOA. ring. }
    assert (H2 : h * h = nv * nv - aa * aa).
    { unfold h. rewrite sqrt_sqrt by apply Rabs_pos. rewrite HH. apply Rabs_pos_eq. nra. }
    (* both candidate intermediate points are admissible *)
    assert (OK : forall g, g * g = nv * nv - aa * aa ->
      let cc := vadd (vadd c1 (vscale aa oa)) (vscale g oh) in
      dot a2 (vsub f o2) = dot a2 (vsub cc o2) /\ dot (vsub f o2) (vsub f o2) = dot (vsub cc o2) (vsub cc o2) /\
      dot a1 (vsub cc o1) = dot a1 (vsub k o1) /\ dot (vsub cc o1) (vsub cc o1) = dot (vsub k o1) (vsub k o1)).
    { intros g Hg cc.
      assert (Q1 : vsub cc o1 = vadd (vscale (dot a1 v) a1) (vadd (vscale aa oa) (vscale g oh))).
      { unfold cc, c1, perp. vlin. }
      set (q := vadd (vscale aa oa) (vscale g oh)) in *.
      assert (aq : dot a1 q = 0) by (unfold q; rewrite dot_add_r, !dot_scale_r, aoa, aoh; ring).
      assert (qq : dot q q = nv * nv).
      { unfold q. rewrite dot_add_l, !dot_add_r, !dot_scale_l, !dot_scale_r, OA, OH, OHOA, (dot_comm oa oh), OHOA. lra. }
      assert (qoa : dot q oa = aa).
      { unfold q. rewrite dot_add_l, !dot_scale_l, OA, OHOA. ring. }
      assert (B1 : dot a1 (vsub cc o1) = dot a1 v).
      { rewrite Q1, dot_add_r, dot_scale_r, U1, aq. ring. }
      assert (B2 : dot (vsub cc o1) (vsub cc o1) = dot v v).
      { rewrite Q1, dot_add_l, !dot_add_r, !dot_scale_l, !dot_scale_r, U1, (dot_comm q a1), aq, qq.
        unfold nv. rewrite norm_sqr, perp_norm2 by auto. ring. }
      assert (Q2 : vsub cc o2 = vadd (vscale (dot a1 u) a1) (vsub q D)).
      { replace (vsub cc o2) with (vsub (vsub cc o1) (vsub o2 o1)) by vlin. rewrite Q1.
        replace (dot a1 u) with (dot a1 v - dot a1 (vsub o2 o1)).
        - unfold D, perp. vlin.
        - rewrite <- AU, AV, <- dot_sub_r. f_equal. vlin. }
      assert (qD : dot q D = aa * cn).
      { rewrite <- qoa. unfold oa. rewrite dot_scale_r. field. lra. }
      assert (qD2 : dot (vsub q D) (vsub q D) = nu * nu).
      { rewrite !dot_sub_l, !dot_sub_r, (dot_comm D q), qq, qD, DD.
        rewrite <- WD, !dot_sub_l, !dot_sub_r, (dot_comm D w), WV, DD.
        assert (dot w D = aa * cn) by (rewrite AA; unfold oa; rewrite dot_scale_r; field; lra). lra. }
      assert (aqD : dot a1 (vsub q D) = 0) by (rewrite dot_sub_r, aq, aD; ring).
      fold u v. repeat split; auto.
      - apply dot_a2. rewrite Q2, dot_add_r, dot_scale_r, U1, aqD. ring.
      - rewrite Q2, dot_add_l, !dot_add_r, !dot_scale_l, !dot_scale_r, U1, (dot_comm (vsub q D) a1), aqD, qD2.
        unfold nu. rewrite norm_sqr, perp_norm2 by auto. ring. }
    assert (THRU : forall g, g * g = nv * nv - aa * aa ->
      let cc := vadd (vadd c1 (vscale aa oa)) (vscale g oh) in
      let th1 := normalizeAngle (raw_angle a1 (vsub cc o1) v) in
      let th2 := normalizeAngle (raw_angle a2 u (vsub cc o2)) in
      reaches2 e1 e2 f k th1 th2 /\
      (th2 <> PI -> move1 e2 th2 f = cc) /\ dist (move1 e2 th2 f) cc <= kdl_eps * dist f (e_origin e2) /\
      norm (perp a1 (vsub cc o1)) = nv).
    { intros g Hg cc th1 th2. destruct (OK g Hg) as (Z1 & Z2 & Z3 & Z4). fold cc in Z1, Z2, Z3, Z4.
      destruct (pair_through a1 o1 a2 o2 f k cc U1 U2 Z1 Z2 Z3 Z4) as (B1 & B2 & X & Dd & X2 & Dd2).
      fold u v in B1, B2, X, Dd, X2, Dd2. fold th1 in B1, X, Dd. fold th2 in B2, X, Dd, X2, Dd2.
      assert (P2 : norm (perp a2 u) <= dist f (e_origin e2)) by (apply perp_le, U2).
      assert (P1 : norm (perp a1 v) <= dist k (e_origin e1)) by (apply perp_le; auto).
      unfold reaches2. repeat match goal with |- _ /\ _ => split end; auto; try lra.
      - eapply Rle_trans; [exact Dd|]. apply Rmult_le_compat_l; lra.
      - eapply Rle_trans; [exact Dd2|]. apply Rmult_le_compat_l; lra.
      - unfold nv. apply norm_eq_iff. rewrite !perp_norm2 by auto. fold v in Z3, Z4. rewrite Z3, Z4. reflexivity. }
    assert (CC : c = vadd (vadd c1 (vscale aa oa)) (vscale (dot w oh) oh)).
    { replace c with (vadd o1 (vadd (vscale (dot a1 v) a1) w)).
      - rewrite WDEC at 1. unfold c1, perp. vlin.
      - unfold w. rewrite AV, <- perp_split. vlin. }
    destruct (THRU h H2) as (T1 & T2 & T3 & T4).
    destruct (THRU (- h) ltac:(lra)) as (S1 & S2 & S3 & _).
    replace (vsub (vadd c1 (vscale aa oa)) (vscale h oh)) with (vadd (vadd c1 (vscale aa oa)) (vscale (- h) oh)) by vlin.
    rewrite T4, Equal_refl. do 4 eexists. split; [reflexivity|]. split; [exact T1|]. split; [exact S1|].
    assert (CS : dot w oh = h \/ dot w oh = - h).
    { rewrite HH in H2. assert (Z : (h - dot w oh) * (h + dot w oh) = 0) by lra.
      apply Rmult_integral in Z as [Z|Z]; [left | right]; lra. }
    destruct CS as [CS | CS]; rewrite CS in CC; rewrite CC; [left | right]; auto.
  Qed.
End PG4.

Lemma normalizeAngle_id : forall t, Rabs t <= PI - kdl_eps -> normalizeAngle t = t.
Proof.
  intros t H. pose proof kdl_eps_pos. unfold normalizeAngle.
  rewrite (proj2 (Equal_false (Rabs t) PI)) by (rewrite Rabs_left; lra).
  assert (- PI <= t <= PI) by (unfold Rabs in H; destruct (Rcase_abs t); lra).
  rewrite (proj2 (Rltb_false PI t)) by lra. rewrite (proj2 (Rltb_false t (- PI))) by lra. reflexivity.
Qed.
Lemma eps_small : kdl_eps < 1 / 2. Proof. unfold kdl_eps; lra. Qed.
Lemma na_half : normalizeAngle (PI / 2) = PI / 2 /\ normalizeAngle (- (PI / 2)) = - (PI / 2).
Proof.
  pose proof PI2_1. pose proof eps_small. split; apply normalizeAngle_id; rewrite ?Rabs_Ropp, Rabs_pos_eq; lra.
Qed.
Lemma atan2_up : forall y, 0 < y -> atan2 y 0 = PI / 2.
Proof.
  intros y H. pose proof PI_RGT_0. pose proof (atan2_unique y (PI / 2) H ltac:(lra)) as A.
  rewrite sin_PI2, cos_PI2, Rmult_0_r, Rmult_1_r in A. exact A.
Qed.
Lemma atan2_down : forall y, y < 0 -> atan2 y 0 = - (PI / 2).
Proof.
  intros y H. pose proof PI_RGT_0. pose proof (atan2_unique (- y) (- (PI / 2)) ltac:(lra) ltac:(lra)) as A.
  rewrite sin_neg, cos_neg, sin_PI2, cos_PI2, Rmult_0_r in A. rewrite <- A. f_equal. ring.
Qed.
Lemma rotz_half : forall v, mv (Rot2 (V 0 0 1) (PI / 2)) v = V (- vy v) (vx v) (vz v).
Proof. intros []. rewrite <- RotZ_Rot2. unfold RotZ; vunf. rewrite sin_PI2, cos_PI2. apply vec_eq; cbn; ring. Qed.
Lemma rotz_mhalf : forall v, mv (Rot2 (V 0 0 1) (- (PI / 2))) v = V (vy v) (- vx v) (vz v).
Proof. intros []. rewrite <- RotZ_Rot2. unfold RotZ; vunf. rewrite sin_neg, cos_neg, sin_PI2, cos_PI2. apply vec_eq; cbn; ring. Qed.

Definition pg4_e1 := E ROTATION (V 0 0 1) (V 0 0 0).
Definition pg4_e2 := E ROTATION (V 0 0 1) (V 2 0 0).
Lemma pg4_D : perp (V 0 0 1) (vsub (V 2 0 0) (V 0 0 0)) = V 2 0 0. Proof. unfold perp; vring. Qed.
Lemma norm_200 : norm (V 2 0 0) = 2.
Proof. unfold norm; vunf; cbn. replace (2 * 2 + 0 * 0 + 0 * 0) with (2 * 2) by ring. apply sqrt_square; lra. Qed.
Lemma norm_010 : norm (V 0 1 0) = 1. Proof. apply unit_norm, unit_ey. Qed.

(** the arm fully stretched *)
Lemma pg4_stretched_ex : exists id1 id2 e1 e2 p rhs pt,
  unit (e_axis e1) /\ e_axis e2 = e_axis e1 /\ e_motion e1 = ROTATION /\ e_motion e2 = ROTATION /\ rigid rhs /\ rigid pt /\
  (exists t1 t2, move2 e1 e2 t1 t2 (fapp pt p) = fapp rhs p) /\
  exists th1 th2, pg4_solve id1 id2 e1 e2 p rhs pt = Some (true, [[(id1, th1); (id2, th2)]; [(id1, th1); (id2, th2)]]) /\
    2 <= dist (move2 e1 e2 th1 th2 (fapp pt p)) (fapp rhs p).
Proof.
  exists O, 1%nat, pg4_e1, pg4_e2, (V 2 1 0), (ftrans (V (-2) 0 0)), fid.
  assert (U : unit (V 0 0 1)) by apply unit_ez.
  assert (FP : fapp (ftrans (V (-2) 0 0)) (V 2 1 0) = V 0 1 0) by (unfold ftrans, fapp, mid; vring).
  pose proof na_half as [N1 N2]. pose proof eps_small.
  split; [exact U|]. split; [reflexivity|]. split; [reflexivity|]. split; [reflexivity|].
  split; [apply rigid_trans|]. split; [apply rigid_id|]. rewrite FP, fapp_id. split.
  { exists (PI / 2), (PI / 2). unfold move2, pg4_e1, pg4_e2. rewrite !move_rot by auto. rewrite !rotz_half. vring. }
  exists (PI / 2), (- (PI / 2)). split.
  - unfold pg4_e1, pg4_e2. rewrite (pg4_unfold O 1%nat (V 0 0 1) (V 0 0 0) (V 0 0 1) (V 2 0 0) (V 2 1 0) 1); auto;
      rewrite ?FP, ?fapp_id, ?pg4_D, ?norm_200; try (vring); try lra.
    replace (perp (V 0 0 1) (vsub (V 2 1 0) (V 2 0 0))) with (V 0 1 0) by (unfold perp; vring).
    replace (perp (V 0 0 1) (vsub (V 0 1 0) (V 0 0 0))) with (V 0 1 0) by (unfold perp; vring).
    rewrite norm_010. replace (1 + 1 - 2) with 0 by ring. rewrite Equal_refl. cbn [negb andb].
    replace (dot (V 0 0 1) (cross (V 2 0 0) (V 0 1 0))) with 2 by (vunf; cbn; ring).
    replace (dot (V 2 0 0) (V 0 1 0)) with 0 by (vunf; cbn; ring).
    replace (dot (V 0 0 1) (cross (V 0 1 0) (V 2 0 0))) with (-(2)) by (vunf; cbn; ring).
    replace (dot (vneg (V 2 0 0)) (V 0 1 0)) with 0 by (vunf; cbn; ring).
    rewrite (atan2_up 2), (atan2_down (-(2))), N1, N2 by lra. reflexivity.
  - unfold move2, pg4_e1, pg4_e2. rewrite !move_rot by auto. rewrite rotz_half, rotz_mhalf.
    unfold dist. match goal with |- _ <= norm ?x => replace x with (V 0 2 0) by vring end.
    unfold norm; vunf; cbn. replace (0 * 0 + 2 * 2 + 0 * 0) with (2 * 2) by ring. rewrite sqrt_square; lra.
Qed.

(** unreachable target off the plane of motion, reported as reachable *)
Lemma pg4_offplane_ex : exists id1 id2 e1 e2 p rhs pt sols,
  unit (e_axis e1) /\ e_axis e2 = e_axis e1 /\ e_motion e1 = ROTATION /\ e_motion e2 = ROTATION /\ rigid rhs /\ rigid pt /\
  pg4_solve id1 id2 e1 e2 p rhs pt = Some (true, sols) /\
  forall t1 t2, 5 <= dist (move2 e1 e2 t1 t2 (fapp pt p)) (fapp rhs p).
Proof.
  exists O, 1%nat, pg4_e1, pg4_e2, (V 2 1 0), (ftrans (V (-2) 0 5)), fid. eexists.
  assert (U : unit (V 0 0 1)) by apply unit_ez.
  assert (FP : fapp (ftrans (V (-2) 0 5)) (V 2 1 0) = V 0 1 5) by (unfold ftrans, fapp, mid; vring).
  pose proof eps_small as ES. pose proof kdl_eps_pos as EP.
  split; [exact U|]. split; [reflexivity|]. split; [reflexivity|]. split; [reflexivity|].
  split; [apply rigid_trans|]. split; [apply rigid_id|]. split.
  - unfold pg4_solve. rewrite FP, fapp_id. unfold pg4_e1.
    rewrite (computeNormal_eq (V 0 0 1) (V 0 0 0) pg4_e2 U).
    2:{ unfold pg4_e2; cbn [e_origin]. rewrite pg4_D, norm_200. lra. }
    unfold pg4_e1, pg4_e2. cbn [e_axis e_origin]. rewrite !perp_eq, pg4_D.
    replace (perp (V 0 0 1) (vsub (V 2 1 0) (V 2 0 0))) with (V 0 1 0) by (unfold perp; vring).
    replace (perp (V 0 0 1) (vsub (V 0 1 5) (V 0 0 0))) with (V 0 1 0) by (unfold perp; vring).
    match goal with |- context [EqualV ?x ?y] => assert (Q : EqualV x y = false) end.
    { destruct (EqualV _ _) eqn:Z; auto. apply EqualV_true in Z as (_ & _ & Z). revert Z. vunf. cbn.
      intro Z. apply Rabs_def2 in Z. lra. }
    rewrite Q, norm_200, norm_010. replace (1 + 1 - 2) with 0 by ring. rewrite Equal_refl. cbn [negb andb]. reflexivity.
  - intros t1 t2. rewrite FP, fapp_id. unfold move2, pg4_e1, pg4_e2. rewrite !move_rot by auto.
    rewrite <- !RotZ_Rot2. unfold dist, norm.
    match goal with |- _ <= sqrt (dot ?x ?x) => set (q := x) end.
    assert (ZQ : vz q = -5) by (unfold q, RotZ; vunf; cbn; ring).
    replace 5 with (sqrt (5 * 5)) by (apply sqrt_square; lra). apply sqrt_le_1_alt. unfold dot. rewrite ZQ.
    pose proof (Rle_0_sqr (vx q)). pose proof (Rle_0_sqr (vy q)). unfold Rsqr in *. lra.
Qed.
