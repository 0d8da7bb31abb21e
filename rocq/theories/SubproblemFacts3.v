(** Proofs about the distance subproblems (PK3, PG3), the translations (PG1, PG2) and the
    two parallel rotations (PG4). *)
From Coq Require Import Reals Lra List Bool Psatz.
From Verif Require Import Kdl KdlFacts Screw ScrewFacts Trig TrigFacts Subproblems SubproblemFacts SubproblemFacts2.
Import ListNotations.
Open Scope R_scope.

(** ** PK3 *)
Lemma rot_angle_dot : forall a u v t, unit a -> dot a u = 0 -> dot a v = 0 ->
  dot (mv (Rot2 a t) u) v = norm u * norm v * cos (t - atan2 (dot a (cross u v)) (dot u v)).
Proof.
  intros a u v t U Hu Hv. set (al := atan2 _ _).
  destruct (Req_dec (norm u) 0) as [Z|Z].
  { rewrite Z. apply norm_zero in Z. subst u. rewrite mv_zero, dot_zero_l. ring. }
  pose proof (rot_to a u v U Hu Hv) as R. fold al in R.
  apply Rmult_eq_reg_l with (norm u); auto.
  rewrite <- dot_scale_r, <- R, dot_scale_r.
  replace t with (al + (t - al)) at 1 by ring. rewrite <- Rot2_plus, mv_mm, dot_rot by (auto; apply Rot2_rot; auto).
  rewrite dot_comm, rot_dot by auto. rewrite <- norm_sqr. ring.
Qed.

Lemma pk3_dist2 : forall a o f k t, unit a ->
  dist (move1 (E ROTATION a o) t f) k * dist (move1 (E ROTATION a o) t f) k =
  dot a (vsub f k) * dot a (vsub f k) + norm (perp a (vsub f o)) * norm (perp a (vsub f o))
  + norm (perp a (vsub k o)) * norm (perp a (vsub k o))
  - 2 * (norm (perp a (vsub f o)) * norm (perp a (vsub k o))) * cos (t - raw_angle a (vsub f o) (vsub k o)).
Proof.
  intros a o f k t U. unfold dist. rewrite norm_sqr, move_rot by auto.
  set (u := vsub f o). set (v := vsub k o).
  replace (vsub (vadd o (mv (Rot2 a t) u)) k) with (vsub (mv (Rot2 a t) u) v) by (unfold v; vlin).
  replace (dot a (vsub f k)) with (dot a u - dot a v) by (unfold u, v; rewrite !dot_sub_r; ring).
  unfold raw_angle. rewrite !norm_sqr.
  pose proof (rot_angle_dot a (perp a u) (perp a v) t U (perp_dot a u U) (perp_dot a v U)) as H.
  rewrite !dot_sub_l, !dot_sub_r, dot_rot by (apply Rot2_rot; auto).
  rewrite (dot_comm v (mv _ u)).
  assert (X : dot (mv (Rot2 a t) u) v = dot a u * dot a v + dot (mv (Rot2 a t) (perp a u)) (perp a v)).
  { rewrite (rot_split a t u) by auto. rewrite (perp_split a v) at 1.
    rewrite dot_add_l, !dot_add_r, !dot_scale_l, !dot_scale_r, U.
    rewrite (dot_comm _ a) with (u := mv (Rot2 a t) (perp a u)) (v := a) || rewrite (dot_comm (mv (Rot2 a t) (perp a u)) a).
    rewrite rot_axis_dot, !perp_dot by auto. ring. }
  rewrite X, H, !perp_norm2 by auto. ring.
Qed.

Section PK3.
  Variables (id : nat) (a o p k : vec) (rhs pt : frame).
  Hypothesis U : unit a.
  Let f := fapp pt p.
  Let e := E ROTATION a o.
  Let delta := dist (fapp rhs p) k.
  Let nu := norm (perp a (vsub f o)).
  Let nv := norm (perp a (vsub k o)).
  Hypothesis NU : nu <> 0.
  Hypothesis NV : nv <> 0.
  Let al := raw_angle a (vsub f o) (vsub k o).
  Let bc := (nu * nu + nv * nv - (delta * delta - dot a (vsub f k) * dot a (vsub f k))) / (2 * nu * nv).

  Lemma nn_pos : 0 < nu * nv.
  Proof.
    assert (0 <= nu) by apply norm_nonneg. assert (0 <= nv) by apply norm_nonneg.
    apply Rmult_lt_0_compat; lra.
  Qed.

  Lemma pk3_unfold : pk3_solve id e p k rhs pt =
    if negb (Equal (Rabs bc) 1) && Rltb (Rabs bc) 1
    then Some (true, [[(id, normalizeAngle (al + acos bc))]; [(id, normalizeAngle (al - acos bc))]])
    else Some (Equal (Rabs bc) 1, [[(id, normalizeAngle al)]; [(id, normalizeAngle al)]]).
  Proof.
    unfold pk3_solve, e. cbn [e_axis e_origin]. fold f. rewrite !perp_eq. fold nu nv.
    fold (dist (fapp rhs p) k). fold delta. unfold fdiv, pow2.
    pose proof nn_pos. rewrite (proj2 (Reqb_false (2 * nu * nv) 0)) by lra. cbn [obind].
    fold bc. fold (raw_angle a (vsub f o) (vsub k o)). fold al.
    destruct (negb (Equal (Rabs bc) 1) && Rltb (Rabs bc) 1) eqn:Q; [|reflexivity].
    apply andb_true_iff in Q as [_ Q]. apply Rltb_true in Q. apply Rabs_def2 in Q.
    rewrite Rmin_right by lra. rewrite Rmax_right by lra. reflexivity.
  Qed.

  (** distance after an arbitrary rotation, in terms of the angle *)
  Lemma pk3_cos : forall t, dist (move1 e t f) k * dist (move1 e t f) k - delta * delta
    = 2 * (nu * nv) * (bc - cos (t - al)).
  Proof.
    intro t. unfold e. rewrite pk3_dist2 by auto. fold nu nv al. unfold bc. field. auto.
  Qed.

  Lemma pk3_dist_iff : forall t, dist (move1 e t f) k = delta <-> cos (t - al) = bc.
  Proof.
    intro t. pose proof (pk3_cos t) as H. pose proof nn_pos. split; intro Q.
    - rewrite Q in H. nra.
    - rewrite Q in H. assert (0 <= delta) by apply norm_nonneg. assert (0 <= dist (move1 e t f) k) by apply norm_nonneg.
      apply Rsqr_inj; auto. unfold Rsqr. lra.
  Qed.

  Lemma al_range : - PI < al <= PI.
  Proof. unfold al, raw_angle. apply atan2_bound. Qed.

  (** snapping an angle keeps the distance up to the tolerance *)
  Lemma snap_move : forall t, - (3 * PI) < t < 3 * PI ->
    - PI < normalizeAngle t <= PI /\
    (normalizeAngle t <> PI -> move1 e (normalizeAngle t) f = move1 e t f) /\
    dist (move1 e (normalizeAngle t) f) (move1 e t f) <= kdl_eps * dist f o.
  Proof.
    intros t Ht. destruct (snap_rot a t (vsub f o) U Ht) as (B & X & N). split; [exact B|]. unfold e. split.
    - intro Z. rewrite !move_rot, X; auto.
    - unfold dist. rewrite !move_rot by auto.
      match goal with |- norm ?x <= _ => replace x with
        (vsub (mv (Rot2 a (normalizeAngle t)) (vsub f o)) (mv (Rot2 a t) (vsub f o))) by vlin end. exact N.
  Qed.

  Lemma dist_lip : forall x y, Rabs (dist x k - dist y k) <= dist x y.
  Proof.
    intros x y. unfold dist. pose proof (norm_triangle3 x y k). pose proof (norm_triangle3 y x k).
    assert (norm (vsub y x) = norm (vsub x y)).
    { apply norm_eq_iff. vring. }
    apply Rabs_le. lra.
  Qed.

  Lemma snap_reaches : forall t, - (3 * PI) < t < 3 * PI -> dist (move1 e t f) k = delta ->
    reaches_dist e f k delta (normalizeAngle t).
  Proof.
    intros t Ht H. destruct (snap_move t Ht) as (B & X & N). split; [exact B|]. split.
    - intro Z. rewrite X; auto.
    - rewrite <- H. eapply Rle_trans; [apply dist_lip|exact N].
  Qed.

  Lemma cos_eq_rot : forall x y, cos x = cos y -> forall b c,
    Rot2 b (x + c) = Rot2 b (y + c) \/ Rot2 b (x + c) = Rot2 b (- y + c).
  Proof.
    intros x y H b c. pose proof (cs1 x). pose proof (cs1 y).
    assert (Q : (sin x - sin y) * (sin x + sin y) = 0) by nra.
    apply Rmult_integral in Q as [Q|Q]; [left | right]; unfold Rot2;
      rewrite !sin_plus, !cos_plus, ?sin_neg, ?cos_neg, H;
      [replace (sin x) with (sin y) by lra | replace (sin x) with (- sin y) by lra]; reflexivity.
  Qed.

  Lemma acos_range : -1 <= bc <= 1 -> 0 <= acos bc <= PI.
  Proof. intro. apply acos_bound. Qed.

  (** two solutions, both correct, and no other *)
  Lemma pk3_generic : Rabs bc <= 1 - kdl_eps ->
    exists th1 th2, pk3_solve id e p k rhs pt = Some (true, [[(id, th1)]; [(id, th2)]]) /\
      reaches_dist e f k delta th1 /\ reaches_dist e f k delta th2 /\
      (forall t, dist (move1 e t f) k = delta ->
        ((th1 <> PI -> move1 e th1 f = move1 e t f) /\ dist (move1 e th1 f) (move1 e t f) <= kdl_eps * dist f o) \/
        ((th2 <> PI -> move1 e th2 f = move1 e t f) /\ dist (move1 e th2 f) (move1 e t f) <= kdl_eps * dist f o)).
  Proof.
    intro G. pose proof kdl_eps_pos as EP. pose proof PI_RGT_0 as PP.
    assert (B : -1 <= bc <= 1) by (unfold Rabs in G; destruct (Rcase_abs bc); lra).
    rewrite pk3_unfold. rewrite (proj2 (Equal_false (Rabs bc) 1)).
    2:{ rewrite Rabs_left by lra. lra. }
    rewrite (proj2 (Rltb_true _ _)) by lra. cbn [negb andb].
    pose proof (acos_range B) as AR. pose proof al_range as LR.
    assert (CA : cos (acos bc) = bc) by (apply cos_acos; auto).
    assert (R1 : - (3 * PI) < al + acos bc < 3 * PI) by lra.
    assert (R2 : - (3 * PI) < al - acos bc < 3 * PI) by lra.
    do 2 eexists. split; [reflexivity|]. split; [|split].
    - apply snap_reaches; auto. apply pk3_dist_iff. rewrite <- CA at 2. f_equal; ring.
    - apply snap_reaches; auto. apply pk3_dist_iff. rewrite <- CA at 2.
      rewrite <- (cos_neg (acos bc)). f_equal; ring.
    - intros t Ht. apply pk3_dist_iff in Ht. rewrite <- CA in Ht.
      assert (MV : forall s, Rot2 a t = Rot2 a s -> move1 e t f = move1 e s f)
        by (intros s E; unfold e; rewrite !move_rot, E; auto).
      destruct (cos_eq_rot _ _ Ht a al) as [Q|Q]; replace (t - al + al) with t in Q by ring.
      + left. apply MV in Q. rewrite Q. replace (acos bc + al) with (al + acos bc) by ring. apply snap_move; auto.
      + right. apply MV in Q. rewrite Q. replace (- acos bc + al) with (al - acos bc) by ring. apply snap_move; auto.
  Qed.

  (** the two solutions merge within the tolerance, on the near side *)
  Lemma pk3_near : Rabs (bc - 1) < kdl_eps ->
    exists th, pk3_solve id e p k rhs pt = Some (true, [[(id, th)]; [(id, th)]]) /\
      (- PI < th <= PI) /\
      (bc = 1 -> reaches_dist e f k delta th) /\
      (th <> PI -> Rabs (dist (move1 e th f) k * dist (move1 e th f) k - delta * delta) <= 2 * (nu * nv) * kdl_eps).
  Proof.
    intro G. pose proof kdl_eps_pos as EP. pose proof PI_RGT_0 as PP. pose proof al_range as LR.
    assert (KE : kdl_eps < 1) by (unfold kdl_eps; lra).
    rewrite pk3_unfold. apply Rabs_def2 in G as G'.
    assert (E1 : Equal (Rabs bc) 1 = true) by (apply Equal_true; rewrite (Rabs_pos_eq bc) by lra; auto).
    rewrite E1. cbn [negb andb]. destruct (snap_move al) as (B & X & N); [lra|].
    exists (normalizeAngle al). split; [reflexivity|]. split; [exact B|]. split.
    - intro Q. apply snap_reaches; [lra|]. apply pk3_dist_iff. replace (al - al) with 0 by ring. rewrite cos_0. auto.
    - intro Z. rewrite X, pk3_cos by auto. replace (al - al) with 0 by ring. rewrite cos_0.
      rewrite Rabs_mult. pose proof nn_pos. rewrite (Rabs_pos_eq (2 * (nu * nv))) by lra.
      apply Rmult_le_compat_l; lra.
  Qed.

  Lemma pk3_flag : forall t, dist (move1 e t f) k = delta ->
    exists sols, pk3_solve id e p k rhs pt = Some (true, sols).
  Proof.
    intros t Ht. apply pk3_dist_iff in Ht. pose proof (COS_bound (t - al)) as B. rewrite Ht in B.
    rewrite pk3_unfold. destruct (Equal (Rabs bc) 1) eqn:E1; cbn [negb andb]; [eexists; reflexivity|].
    apply Equal_false in E1. pose proof kdl_eps_pos.
    assert (Rabs bc < 1).
    { assert (Rabs bc <= 1) by (apply Rabs_le; lra). unfold Rabs in E1 at 1. destruct (Rcase_abs (Rabs bc - 1)); lra. }
    rewrite (proj2 (Rltb_true _ _)) by auto. eexists; reflexivity.
  Qed.

  Lemma pk3_flag_sound : forall sols, pk3_solve id e p k rhs pt = Some (true, sols) ->
    exists t, Rabs (dist (move1 e t f) k * dist (move1 e t f) k - delta * delta) <= 2 * (nu * nv) * kdl_eps.
  Proof.
    intros sols H. rewrite pk3_unfold in H. pose proof nn_pos as NP. pose proof kdl_eps_pos as EP.
    assert (B : Rabs bc < 1 + kdl_eps).
    { destruct (Equal (Rabs bc) 1) eqn:E1; cbn [negb andb] in H.
      - apply Equal_true, Rabs_def2 in E1. lra.
      - destruct (Rltb (Rabs bc) 1) eqn:E2; [|discriminate]. apply Rltb_true in E2. lra. }
    apply Rabs_def2 in B.
    assert (Q : exists c, -1 <= c <= 1 /\ Rabs (bc - c) <= kdl_eps).
    { destruct (Rle_dec bc 1); [destruct (Rle_dec (-1) bc)|].
      - exists bc. split; [lra|]. rewrite Rminus_diag_eq, Rabs_R0 by reflexivity. lra.
      - exists (-1). split; [lra|]. rewrite Rabs_left; lra.
      - exists 1. split; [lra|]. rewrite Rabs_pos_eq; lra. }
    destruct Q as (c & C & D). exists (al + acos c). rewrite pk3_cos.
    replace (al + acos c - al) with (acos c) by ring. rewrite cos_acos by auto.
    rewrite Rabs_mult, (Rabs_pos_eq (2 * (nu * nv))) by lra. apply Rmult_le_compat_l; lra.
  Qed.
End PK3.

(** the far side: the only rotation is the opposite one, yet the angle returned is the
    nearest-point angle *)
Lemma pk3_far_ex : exists id e p k rhs pt,
  unit (e_axis e) /\ e_motion e = ROTATION /\ rigid rhs /\ rigid pt /\
  (exists t, dist (move1 e t (fapp pt p)) k = dist (fapp rhs p) k) /\
  exists th, pk3_solve id e p k rhs pt = Some (true, [[(id, th)]; [(id, th)]]) /\
    dist (move1 e th (fapp pt p)) k + 2 = dist (fapp rhs p) k.
Proof.
  exists O, (E ROTATION (V 0 0 1) (V 0 0 0)), (V 1 0 0), (V 1 0 0), (F (RotZ PI) vzero), fid.
  assert (U : unit (V 0 0 1)) by apply unit_ez.
  assert (FP : fapp (F (RotZ PI) vzero) (V 1 0 0) = V (-1) 0 0).
  { unfold fapp, RotZ; vunf. rewrite sin_PI, cos_PI. apply vec_eq; cbn; ring. }
  assert (D2 : dist (V (-1) 0 0) (V 1 0 0) = 2).
  { unfold dist, norm. vunf. replace ((-1 - 1) * (-1 - 1) + (0 - 0) * (0 - 0) + (0 - 0) * (0 - 0)) with (2 * 2) by ring.
    apply sqrt_square; lra. }
  split; [exact U|]. split; [reflexivity|]. split.
  { unfold rigid; cbn [fM]. rewrite RotZ_Rot2. apply Rot2_rot; auto. }
  split; [apply rigid_id|]. rewrite fapp_id, FP, D2. split.
  { exists PI. rewrite move_rot by auto. rewrite <- D2. f_equal.
    replace (vsub (V 1 0 0) (V 0 0 0)) with (V 1 0 0) by vring. rewrite <- RotZ_Rot2.
    unfold RotZ; vunf. rewrite sin_PI, cos_PI. apply vec_eq; cbn; ring. }
  assert (PA : perp (V 0 0 1) (vsub (V 1 0 0) (V 0 0 0)) = V 1 0 0) by (unfold perp; vring).
  assert (N1 : norm (V 1 0 0) = 1) by (apply unit_norm, unit_ex).
  exists 0. split.
  - rewrite pk3_unfold; auto.
    2,3: rewrite ?fapp_id, PA, N1; lra.
    rewrite fapp_id, FP, D2, PA, N1.
    assert (AL : raw_angle (V 0 0 1) (vsub (V 1 0 0) (V 0 0 0)) (vsub (V 1 0 0) (V 0 0 0)) = 0).
    { unfold raw_angle. rewrite PA, cross_self, dot_zero_r, (unit_ex : dot _ _ = 1).
      pose proof PI_RGT_0. pose proof (atan2_unique 1 0 ltac:(lra) ltac:(lra)) as A. rewrite sin_0, cos_0 in A.
      rewrite Rmult_0_r, Rmult_1_r in A. exact A. }
    rewrite AL.
    replace (dot (V 0 0 1) (vsub (V 1 0 0) (V 1 0 0))) with 0 by (vunf; ring).
    replace ((1 * 1 + 1 * 1 - (2 * 2 - 0 * 0)) / (2 * 1 * 1)) with (-(1)) by field.
    rewrite Rabs_Ropp, Rabs_R1, Equal_refl. cbn [negb andb].
    assert (NA : normalizeAngle 0 = 0).
    { unfold normalizeAngle. rewrite Rabs_R0. pose proof PI_RGT_0. pose proof PI2_1. unfold kdl_eps.
      rewrite (proj2 (Equal_false 0 PI)).
      2:{ unfold kdl_eps. rewrite Rabs_left by lra. lra. }
      rewrite (proj2 (Rltb_false PI 0)) by lra. rewrite (proj2 (Rltb_false 0 (- PI))) by lra. reflexivity. }
    rewrite NA. reflexivity.
  - rewrite move_rot by auto. rewrite Rot2_zero, mv_id.
    replace (vadd (V 0 0 0) (vsub (V 1 0 0) (V 0 0 0))) with (V 1 0 0) by vring.
    unfold dist. rewrite vsub_diag. unfold norm. rewrite dot_zero_l, sqrt_0. ring.
Qed.

(** ** PG1, PG2 *)
Lemma pg1_exact : forall id a o p rhs pt t, unit a ->
  move1 (E TRANSLATION a o) t (fapp pt p) = fapp rhs p ->
  pg1_solve id (E TRANSLATION a o) p rhs pt = Some (true, [[(id, t)]]).
Proof.
  intros id a o p rhs pt t U H. unfold pg1_solve. cbn [e_axis]. rewrite <- H, move_trans.
  replace (vsub (vadd (fapp pt p) (vscale t a)) (fapp pt p)) with (vscale t a) by vlin.
  rewrite dot_scale_r, U, Rmult_1_r. reflexivity.
Qed.

Lemma pg2_exact : forall id1 id2 a1 a2 o1 o2 p rhs pt t1 t2, unit a1 -> unit a2 -> cross a2 a1 <> vzero ->
  move2 (E TRANSLATION a1 o1) (E TRANSLATION a2 o2) t1 t2 (fapp pt p) = fapp rhs p ->
  pg2_solve id1 id2 (E TRANSLATION a1 o1) (E TRANSLATION a2 o2) p rhs pt = Some (true, [[(id1, t1); (id2, t2)]]).
Proof.
  intros id1 id2 a1 a2 o1 o2 p rhs pt t1 t2 U1 U2 NZ H. unfold move2 in H. rewrite !move_trans in H.
  unfold pg2_solve. cbn [e_axis]. rewrite <- H. set (f := fapp pt p). set (X := cross a2 a1) in *.
  assert (NP : 0 < norm X).
  { pose proof (norm_nonneg X). destruct (Req_dec (norm X) 0) as [Z|]; [apply norm_zero in Z; contradiction | lra]. }
  replace (cross a2 (vsub f (vadd (vadd f (vscale t2 a2)) (vscale t1 a1)))) with (vscale (- t1) X)
    by (unfold X; vring).
  rewrite norm_scale, Rabs_Ropp, dot_scale_l, <- norm_sqr.
  unfold fdiv. rewrite (proj2 (Reqb_false (norm X) 0)) by lra. cbn [obind].
  replace (Rabs t1 * norm X / norm X) with (Rabs t1) by (field; lra).
  assert (Q : (if Rleb (Rabs t1 * norm X * norm X) (- t1 * (norm X * norm X))
     then vadd (vadd (vadd f (vscale t2 a2)) (vscale t1 a1)) (vscale (Rabs t1) a1)
     else vsub (vadd (vadd f (vscale t2 a2)) (vscale t1 a1)) (vscale (Rabs t1) a1)) = vadd f (vscale t2 a2)).
  { assert (0 < norm X * norm X) by nra. destruct (Rleb _ _) eqn:C; [apply Rleb_true in C | apply Rleb_false in C].
    - assert (t1 <= 0). { destruct (Rle_dec t1 0); auto. rewrite Rabs_pos_eq in C by lra. nra. }
      rewrite Rabs_left1 by auto. vlin.
    - assert (0 <= t1). { destruct (Rle_dec 0 t1); auto. rewrite Rabs_left in C by lra. nra. }
      rewrite Rabs_pos_eq by auto. vlin. }
  rewrite Q.
  replace (vsub (vadd (vadd f (vscale t2 a2)) (vscale t1 a1)) (vadd f (vscale t2 a2))) with (vscale t1 a1) by vlin.
  replace (vsub (vadd f (vscale t2 a2)) f) with (vscale t2 a2) by vlin.
  rewrite !dot_scale_r, U1, U2, !Rmult_1_r. reflexivity.
Qed.

Lemma pg_flag_ex :
  (exists id e p rhs pt sols, unit (e_axis e) /\ e_motion e = TRANSLATION /\ rigid rhs /\ rigid pt /\
    pg1_solve id e p rhs pt = Some (true, sols) /\
    forall t, 1 <= dist (move1 e t (fapp pt p)) (fapp rhs p)) /\
  (exists id1 id2 e1 e2 p rhs pt sols, unit (e_axis e1) /\ unit (e_axis e2) /\
    e_motion e1 = TRANSLATION /\ e_motion e2 = TRANSLATION /\ cross (e_axis e1) (e_axis e2) <> vzero /\ rigid rhs /\ rigid pt /\
    pg2_solve id1 id2 e1 e2 p rhs pt = Some (true, sols) /\
    forall t1 t2, 1 <= dist (move2 e1 e2 t1 t2 (fapp pt p)) (fapp rhs p)).
Proof.
  assert (G : forall v, 1 <= vz v * vz v -> 1 <= norm v).
  { intros v H. unfold norm. rewrite <- sqrt_1 at 1. apply sqrt_le_1_alt. unfold dot. pose proof (Rle_0_sqr (vx v)).
    pose proof (Rle_0_sqr (vy v)). unfold Rsqr in *. lra. }
  split.
  - exists O, (E TRANSLATION (V 1 0 0) vzero), vzero, (ftrans (V 0 0 1)), fid. eexists.
    split; [apply unit_ex|]. split; [reflexivity|]. split; [apply rigid_trans|]. split; [apply rigid_id|].
    split; [reflexivity|]. intro t. rewrite move_trans, fapp_id. unfold dist. apply G.
    unfold ftrans, fapp, mid; vunf. cbn. right. ring.
  - exists O, 1%nat, (E TRANSLATION (V 1 0 0) vzero), (E TRANSLATION (V 0 1 0) vzero), vzero, (ftrans (V 0 0 1)), fid.
    eexists. split; [apply unit_ex|]. split; [apply unit_ey|]. split; [reflexivity|]. split; [reflexivity|].
    split. { cbn [e_axis]. intro H. apply (f_equal vz) in H. revert H. vunf. cbn. lra. }
    split; [apply rigid_trans|]. split; [apply rigid_id|].
    split.
    + unfold pg2_solve, fdiv. cbn [e_axis].
      assert (N : norm (cross (V 0 1 0) (V 1 0 0)) <> 0).
      { intro Z. apply norm_zero in Z. apply (f_equal vz) in Z. revert Z. vunf. cbn. lra. }
      rewrite (proj2 (Reqb_false _ 0)) by exact N. cbn [obind]. reflexivity.
    + intros t1 t2. unfold move2. rewrite !move_trans, fapp_id. unfold dist. apply G.
      unfold ftrans, fapp, mid; vunf. cbn. right. ring.
Qed.

(** ** PG3 *)
Section PG3.
  Variables (id : nat) (a o p k : vec) (rhs pt : frame).
  Hypothesis U : unit a.
  Let f := fapp pt p.
  Let e := E TRANSLATION a o.
  Let delta := dist (fapp rhs p) k.
  Let dp := dot a (vsub k f).
  Let sq2 := dp * dp - dot (vsub k f) (vsub k f) + delta * delta.

  Lemma pg3_unfold : pg3_solve id e p k rhs pt =
    if negb (Equal sq2 0) && Rltb 0 sq2
    then Some (true, [[(id, dp + sqrt sq2)]; [(id, dp - sqrt sq2)]])
    else Some (Equal sq2 0, [[(id, Rabs dp)]; [(id, Rabs dp)]]).
  Proof.
    unfold pg3_solve, e. cbn [e_axis]. fold f. fold (dist (fapp rhs p) k). fold delta. unfold pow2.
    rewrite norm_sqr. fold dp. fold sq2. rewrite pow2_mv. fold dp. rewrite norm_scale, (unit_norm a U), Rmult_1_r.
    destruct (Rltb 0 sq2) eqn:Q; [|rewrite andb_false_r; reflexivity].
    apply Rltb_true in Q. rewrite Rabs_pos_eq by lra. reflexivity.
  Qed.

  Lemma pg3_dist2 : forall t, dist (move1 e t f) k * dist (move1 e t f) k - delta * delta = (t - dp) * (t - dp) - sq2.
  Proof.
    intro t. unfold e. rewrite move_trans. unfold dist. rewrite norm_sqr.
    replace (vsub (vadd f (vscale t a)) k) with (vsub (vscale t a) (vsub k f)) by vlin.
    rewrite !dot_sub_l, !dot_sub_r, !dot_scale_l, !dot_scale_r, U.
    unfold sq2. unfold dp. rewrite ?dot_sub_l, ?dot_sub_r. rewrite (dot_comm k a), (dot_comm f a). ring.
  Qed.

  Lemma pg3_dist_iff : forall t, dist (move1 e t f) k = delta <-> (t - dp) * (t - dp) = sq2.
  Proof.
    intro t. pose proof (pg3_dist2 t) as H. split; intro Q.
    - rewrite Q in H. lra.
    - assert (0 <= delta) by apply norm_nonneg. assert (0 <= dist (move1 e t f) k) by apply norm_nonneg.
      apply Rsqr_inj; auto. unfold Rsqr. lra.
  Qed.

  Lemma pg3_generic : kdl_eps <= sq2 ->
    exists th1 th2, pg3_solve id e p k rhs pt = Some (true, [[(id, th1)]; [(id, th2)]]) /\
      forall t, dist (move1 e t f) k = delta <-> (t = th1 \/ t = th2).
  Proof.
    intro G. pose proof kdl_eps_pos. rewrite pg3_unfold.
    rewrite (proj2 (Equal_false sq2 0)) by (rewrite Rminus_0_r, Rabs_pos_eq; lra).
    rewrite (proj2 (Rltb_true 0 sq2)) by lra. cbn [negb andb].
    do 2 eexists. split; [reflexivity|]. intro t. rewrite pg3_dist_iff.
    assert (S2 : sqrt sq2 * sqrt sq2 = sq2) by (apply sqrt_sqrt; lra). split.
    - intro Q. rewrite <- S2 in Q. assert (Z : (t - dp - sqrt sq2) * (t - dp + sqrt sq2) = 0) by lra.
      apply Rmult_integral in Z as [Z|Z]; [left | right]; lra.
    - intros [-> | ->]; rewrite <- S2 at 3; ring.
  Qed.

  Lemma pg3_near : 0 <= sq2 < kdl_eps -> 0 <= dp ->
    exists th, pg3_solve id e p k rhs pt = Some (true, [[(id, th)]; [(id, th)]]) /\
      Rabs (dist (move1 e th f) k * dist (move1 e th f) k - delta * delta) < kdl_eps /\
      (sq2 = 0 -> forall t, dist (move1 e t f) k = delta <-> t = th).
  Proof.
    intros G D. pose proof kdl_eps_pos. rewrite pg3_unfold.
    rewrite (proj2 (Equal_true sq2 0)) by (rewrite Rminus_0_r, Rabs_pos_eq; lra). cbn [negb andb].
    rewrite Rabs_pos_eq by auto. exists dp. split; [reflexivity|]. split.
    - rewrite pg3_dist2. rewrite Rabs_left1; lra.
    - intros Z t. rewrite pg3_dist_iff, Z. split.
      + intro Q. apply Rmult_integral in Q. lra.
      + intros ->. ring.
  Qed.

  Lemma pg3_flag : forall t, dist (move1 e t f) k = delta ->
    exists sols, pg3_solve id e p k rhs pt = Some (true, sols).
  Proof.
    intros t Ht. apply pg3_dist_iff in Ht. rewrite pg3_unfold.
    destruct (Equal sq2 0) eqn:E1; cbn [negb andb]; [eexists; reflexivity|].
    apply Equal_false in E1. pose proof kdl_eps_pos. rewrite Rminus_0_r in E1.
    assert (0 <= sq2) by (rewrite <- Ht; apply Rle_0_sqr). rewrite Rabs_pos_eq in E1 by auto.
    rewrite (proj2 (Rltb_true _ _)) by lra. eexists; reflexivity.
  Qed.
End PG3.

Lemma pg3_neg_ex : exists id e p k rhs pt,
  unit (e_axis e) /\ e_motion e = TRANSLATION /\ rigid rhs /\ rigid pt /\
  (exists t, dist (move1 e t (fapp pt p)) k = dist (fapp rhs p) k) /\
  exists th, pg3_solve id e p k rhs pt = Some (true, [[(id, th)]; [(id, th)]]) /\
    dist (fapp rhs p) k + 3 <= dist (move1 e th (fapp pt p)) k.
Proof.
  exists O, (E TRANSLATION (V 0 0 1) (V 0 0 0)), vzero, (V 1 0 (-2)), (ftrans (V 2 0 (-2))), fid.
  assert (U : unit (V 0 0 1)) by apply unit_ez.
  assert (FP : fapp (ftrans (V 2 0 (-2))) vzero = V 2 0 (-2)) by (unfold ftrans, fapp, mid; vring).
  assert (D1 : dist (V 2 0 (-2)) (V 1 0 (-2)) = 1).
  { unfold dist. replace (vsub (V 2 0 (-2)) (V 1 0 (-2))) with (V 1 0 0) by vring. apply unit_norm, unit_ex. }
  split; [exact U|]. split; [reflexivity|]. split; [apply rigid_trans|]. split; [apply rigid_id|].
  rewrite FP, D1, fapp_id. split.
  { exists (-2). rewrite move_trans. unfold dist.
    replace (vsub (vadd vzero (vscale (-2) (V 0 0 1))) (V 1 0 (-2))) with (vneg (V 1 0 0)) by vring.
    apply unit_norm, unit_neg, unit_ex. }
  exists 2. split.
  - rewrite pg3_unfold by auto. rewrite fapp_id, FP, D1.
    replace (dot (V 0 0 1) (vsub (V 1 0 (-2)) vzero)) with (-(2)) by (vunf; ring).
    replace (dot (vsub (V 1 0 (-2)) vzero) (vsub (V 1 0 (-2)) vzero)) with 5 by (vunf; ring).
    replace (- (2) * - (2) - 5 + 1 * 1) with 0 by ring. rewrite Equal_refl. cbn [negb andb].
    rewrite Rabs_Ropp, Rabs_pos_eq by lra. reflexivity.
  - rewrite move_trans. unfold dist, norm. vunf. cbn.
    replace 4 with (sqrt (4 * 4)) by (apply sqrt_square; lra). 
    replace (1 + 3) with (sqrt (4 * 4)) by (rewrite sqrt_square; lra).
    apply sqrt_le_1_alt. lra.
Qed.

(** ** PG4 *)
Lemma computeNormal_eq : forall a1 o1 e2, unit a1 -> kdl_eps <= norm (perp a1 (vsub (e_origin e2) o1)) ->
  computeNormal (E ROTATION a1 o1) e2 = perp a1 (vsub (e_origin e2) o1).
Proof.
  intros a1 o1 e2 U H. unfold computeNormal. cbn [e_axis e_origin]. set (d := vsub (e_origin e2) o1) in *.
  assert (C : cross (cross a1 d) a1 = perp a1 d).
  { rewrite cross_cross_l, U. unfold perp. rewrite (dot_comm d a1). vlin. }
  rewrite C. set (D := perp a1 d) in *. pose proof kdl_eps_pos.
  unfold normalize. rewrite (proj2 (Rltb_false (norm D) kdl_eps)) by auto. rewrite pow2_mv, dot_scale_l.
  assert (DD : dot D d = norm D * norm D).
  { rewrite norm_sqr. unfold D. rewrite (perp_split a1 d) at 2.
    rewrite dot_add_r, dot_scale_r, (dot_comm _ a1), perp_dot by auto. ring. }
  rewrite DD, vscale_vscale. replace (/ norm D * (norm D * norm D) * (/ norm D)) with 1 by (field; lra). apply vscale_1.
Qed.
