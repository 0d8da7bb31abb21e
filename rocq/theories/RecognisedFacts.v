(** When the subproblems of one joint report a target as reachable (C167). *)
From Coq Require Import Reals List Lra Psatz Bool.
From Verif Require Import Kdl KdlFacts Screw ScrewFacts Trig TrigFacts Subproblems SubproblemFacts SubproblemFacts2 SubproblemFacts3 NearPlaneFacts NearestFacts.
Import ListNotations.
Open Scope R_scope.

Lemma sq_lt : forall x y, 0 <= y -> x * x < y * y -> Rabs x < y.
Proof. intros x y Y H. apply Rsqr_lt_abs_0 in H. now rewrite (Rabs_pos_eq y) in H. Qed.

Lemma axis_comp : forall a d, unit a -> Rabs d < kdl_eps ->
  Rabs (d * vx a) < kdl_eps /\ Rabs (d * vy a) < kdl_eps /\ Rabs (d * vz a) < kdl_eps.
Proof.
  intros a d U D. unfold unit, dot in U.
  assert (X : forall c, c * c <= 1 -> Rabs (d * c) < kdl_eps).
  { intros c C. rewrite Rabs_mult. assert (Rabs c <= 1). { apply sq_le; [apply Rabs_pos | lra |]. rewrite <- Rabs_mult, Rabs_pos_eq; nra. }
    pose proof (Rabs_pos c). pose proof (Rabs_pos d). nra. }
  repeat split; apply X; nra.
Qed.

Lemma pk1_recognised : forall id a o p rhs pt t, unit a ->
  dist (move1 (E ROTATION a o) t (fapp pt p)) (fapp rhs p) < kdl_eps ->
  exists sols, pk1_solve id (E ROTATION a o) p rhs pt = Some (true, sols).
Proof.
  intros id a o p rhs pt t U H. rewrite pk1_unfold. cbv zeta. eexists. f_equal. f_equal.
  set (f := fapp pt p) in *. set (k := fapp rhs p) in *.
  pose proof (pk3_dist2 a o f k t U) as D. set (x := dist _ _) in *. assert (X0 : 0 <= x) by apply norm_nonneg.
  set (nu := norm (perp a (vsub f o))) in *. set (nv := norm (perp a (vsub k o))) in *.
  assert (N : 0 <= nu * nv) by (apply Rmult_le_pos; apply norm_nonneg).
  pose proof (COS_bound (t - raw_angle a (vsub f o) (vsub k o))) as (_ & C).
  set (c := cos _) in *. clearbody c. pose proof kdl_eps_pos as EP.
  assert (XX : x * x < kdl_eps * kdl_eps) by nra.
  assert (S : dot a (vsub f k) * dot a (vsub f k) + (nu - nv) * (nu - nv) <= x * x) by nra.
  pose proof (Rle_0_sqr (nu - nv)) as Z1. pose proof (Rle_0_sqr (dot a (vsub f k))) as Z2. unfold Rsqr in Z1, Z2.
  assert (A : Rabs (dot a (vsub f k)) < kdl_eps) by (apply sq_lt; lra).
  assert (B : Rabs (nu - nv) < kdl_eps) by (apply sq_lt; lra).
  assert (T : Equal nu nv = true) by (apply Equal_true; exact B). rewrite T, andb_true_r.
  apply EqualV_true. destruct (axis_comp a _ U A) as (P1 & P2 & P3).
  assert (Q : dot a (vsub f k) = dot a (vsub f o) - dot a (vsub k o)) by (rewrite !dot_sub_r; ring). rewrite Q in P1, P2, P3.
  rewrite Rmult_minus_distr_r in P1, P2, P3. cbn [vscale vx vy vz]. auto.
Qed.

Section PK3.
  Variables (id : nat) (a o p k : vec) (rhs pt : frame).
  Hypothesis U : unit a.
  Let f := fapp pt p.
  Let e := E ROTATION a o.
  Let delta := dist (fapp rhs p) k.
  Let nu := norm (perp a (vsub f o)).
  Let nv := norm (perp a (vsub k o)).
  Hypothesis NU : nu <> 0.
  Hypothesis NV : nv <> 0.

  Lemma pk3_recognised : (exists sols, pk3_solve id e p k rhs pt = Some (true, sols)) <->
    exists t, Rabs (dist (move1 e t f) k * dist (move1 e t f) k - delta * delta) < 2 * (nu * nv) * kdl_eps.
  Proof.
    pose proof (nn0 a o p k pt NU NV) as NN. fold f nu nv in NN. pose proof kdl_eps_pos as EP.
    assert (C : exists bc al, (forall t, dist (move1 e t f) k * dist (move1 e t f) k - delta * delta = 2 * (nu * nv) * (bc - cos (t - al))) /\
      pk3_solve id e p k rhs pt = if negb (Equal (Rabs bc) 1) && Rltb (Rabs bc) 1
      then Some (true, [[(id, normalizeAngle (al + acos bc))]; [(id, normalizeAngle (al - acos bc))]])
      else Some (Equal (Rabs bc) 1, [[(id, normalizeAngle al)]; [(id, normalizeAngle al)]])).
    { do 2 eexists. split; [exact (pk3_cos a o p k rhs pt U NU NV) | exact (pk3_unfold id a o p k rhs pt NU NV)]. }
    destruct C as (bc & al & C & S). rewrite S. clear S. split.
    - intros (sols & H). 
      assert (B : Rabs bc < 1 + kdl_eps).
      { destruct (negb (Equal (Rabs bc) 1) && Rltb (Rabs bc) 1) eqn:Q.
        - apply andb_true_iff in Q as (_ & Q). apply Rltb_true in Q. lra.
        - injection H as H _. apply Equal_true in H. apply Rabs_def2 in H. lra. }
      apply Rabs_def2 in B.
      exists (al + acos bc). rewrite C. replace (al + acos bc - al) with (acos bc) by ring.
      assert (G : Rabs (bc - cos (acos bc)) < kdl_eps).
      { destruct (Rle_lt_dec (-1) bc) as [L|L]; [destruct (Rle_lt_dec bc 1) as [R|R]|].
        - rewrite cos_acos by lra. rewrite Rminus_eq_0, Rabs_R0. lra.
        - replace (acos bc) with 0. 2:{ unfold acos. destruct (Rle_dec bc (-1)); [lra|]. destruct (Rle_dec 1 bc); lra. }
          rewrite cos_0. apply Rabs_def1; lra.
        - replace (acos bc) with PI. 2:{ unfold acos. destruct (Rle_dec bc (-1)); lra. }
          rewrite cos_PI. apply Rabs_def1; lra. }
      rewrite Rabs_mult, (Rabs_pos_eq (2 * (nu * nv))) by lra. apply Rmult_lt_compat_l; lra.
    - intros (t & H). rewrite C, Rabs_mult, (Rabs_pos_eq (2 * (nu * nv))) in H by lra. apply Rmult_lt_reg_l in H; [|lra].
      apply Rabs_def2 in H. pose proof (COS_bound (t - al)).
      assert (B : Rabs bc < 1 + kdl_eps) by (apply Rabs_def1; lra).
      destruct (Equal (Rabs bc) 1) eqn:Q; cbn [negb andb]; [eauto|].
      destruct (Rltb (Rabs bc) 1) eqn:L; [eauto|]. apply Rltb_false in L. apply Equal_false in Q. rewrite Rabs_pos_eq in Q; lra.
  Qed.
End PK3.

Section PG3.
  Variables (id : nat) (a o p k : vec) (rhs pt : frame).
  Hypothesis U : unit a.
  Let f := fapp pt p.
  Let e := E TRANSLATION a o.
  Let delta := dist (fapp rhs p) k.

  Lemma pg3_recognised : (exists sols, pg3_solve id e p k rhs pt = Some (true, sols)) <->
    exists t, Rabs (dist (move1 e t f) k * dist (move1 e t f) k - delta * delta) < kdl_eps.
  Proof.
    pose proof kdl_eps_pos as EP. unfold e. rewrite pg3_unfold by auto. fold f delta.
    set (dp := dot a (vsub k f)). set (sq2 := dp * dp - dot (vsub k f) (vsub k f) + delta * delta).
    assert (C : forall t, dist (move1 (E TRANSLATION a o) t f) k * dist (move1 (E TRANSLATION a o) t f) k - delta * delta = (t - dp) * (t - dp) - sq2).
    { intro t. rewrite trans_dist2 by auto. unfold sq2, dp. ring. }
    clearbody sq2. split.
    - intros (sols & H). destruct (Rle_lt_dec 0 sq2) as [L|L].
      + exists (dp + sqrt sq2). rewrite C. replace (dp + sqrt sq2 - dp) with (sqrt sq2) by ring. rewrite sqrt_sqrt, Rminus_eq_0, Rabs_R0 by auto. lra.
      + exists dp. rewrite C. replace ((dp - dp) * (dp - dp) - sq2) with (- sq2) by ring.
        destruct (Rltb 0 sq2) eqn:Q; [apply Rltb_true in Q; lra|]. rewrite andb_false_r in H. injection H as H _. apply Equal_true in H. apply Rabs_def2 in H.
        rewrite Rabs_pos_eq; lra.
    - intros (t & H). rewrite C in H. apply Rabs_def2 in H. pose proof (Rle_0_sqr (t - dp)) as Z. unfold Rsqr in Z.
      destruct (Equal sq2 0) eqn:Q; cbn [negb andb]; [eauto|].
      destruct (Rltb 0 sq2) eqn:L; [eauto|]. apply Rltb_false in L. apply Equal_false in Q. rewrite Rabs_left1 in Q; lra.
  Qed.
End PG3.

(** ** examples: targets missed by less than the tolerance *)
Lemma near_one : forall d, 0 <= d -> dist (V 1 0 0) (V (1 + d) 0 0) = d.
Proof. intros d D. unfold dist, norm. replace (dot _ _) with (d * d) by (vunf; cbn; ring). now apply sqrt_square. Qed.
Lemma still : move1 (E ROTATION (V 0 0 1) vzero) 0 (V 1 0 0) = V 1 0 0.
Proof.
  rewrite move_rot by apply unit_ez. rewrite <- RotZ_Rot2. unfold RotZ; vunf. rewrite sin_0, cos_0. apply vec_eq; cbn; ring.
Qed.
Lemma ex_missed : dist (move1 (E ROTATION (V 0 0 1) vzero) 0 (fapp fid (V 1 0 0))) (fapp (ftrans (V (kdl_eps / 2) 0 0)) (V 1 0 0)) < kdl_eps.
Proof.
  rewrite fapp_id, still. pose proof kdl_eps_pos.
  replace (fapp (ftrans (V (kdl_eps / 2) 0 0)) (V 1 0 0)) with (V (1 + kdl_eps / 2) 0 0) by (pts; f_equal; ring). rewrite near_one; lra.
Qed.
Lemma ex_missed3 : norm (perp (V 0 0 1) (vsub (fapp fid (V 1 0 0)) vzero)) <> 0 /\ norm (perp (V 0 0 1) (vsub (V 1 0 0) vzero)) <> 0 /\
  exists t, Rabs (dist (move1 (E ROTATION (V 0 0 1) vzero) t (fapp fid (V 1 0 0))) (V 1 0 0) * dist (move1 (E ROTATION (V 0 0 1) vzero) t (fapp fid (V 1 0 0))) (V 1 0 0)
    - dist (fapp (ftrans (V (kdl_eps / 2) 0 0)) (V 1 0 0)) (V 1 0 0) * dist (fapp (ftrans (V (kdl_eps / 2) 0 0)) (V 1 0 0)) (V 1 0 0))
    < 2 * (norm (perp (V 0 0 1) (vsub (fapp fid (V 1 0 0)) vzero)) * norm (perp (V 0 0 1) (vsub (V 1 0 0) vzero))) * kdl_eps.
Proof.
  rewrite fapp_id, perp_x. split; [lra|]. split; [lra|]. exists 0. rewrite still.
  unfold dist. rewrite !norm_sqr. replace (vsub (V 1 0 0) (V 1 0 0)) with vzero by vring. rewrite dot_zero_l.
  replace (dot (vsub (fapp (ftrans (V (kdl_eps / 2) 0 0)) (V 1 0 0)) (V 1 0 0)) (vsub (fapp (ftrans (V (kdl_eps / 2) 0 0)) (V 1 0 0)) (V 1 0 0)))
    with (kdl_eps / 2 * (kdl_eps / 2)) by (pts; field).
  unfold kdl_eps. rewrite Rabs_left1; lra.
Qed.
Lemma ex_missed_pg3 : exists t, Rabs (dist (move1 (E TRANSLATION (V 0 0 1) vzero) t (fapp fid vzero)) (V 2 0 (-2)) * dist (move1 (E TRANSLATION (V 0 0 1) vzero) t (fapp fid vzero)) (V 2 0 (-2))
    - dist (fapp (ftrans (V 4 0 (-2))) vzero) (V 2 0 (-2)) * dist (fapp (ftrans (V 4 0 (-2))) vzero) (V 2 0 (-2))) < kdl_eps.
Proof.
  exists (-2). rewrite fapp_id, trans_dist2 by apply unit_ez. unfold dist. rewrite norm_sqr.
  match goal with |- Rabs ?x < _ => replace x with 0 by (pts; ring) end. rewrite Rabs_R0. apply kdl_eps_pos.
Qed.
