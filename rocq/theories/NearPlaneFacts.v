(** What two translations answer for a target that is a little off their plane (C164). *)
From Coq Require Import Reals List Lra Psatz.
From Verif Require Import Kdl KdlFacts Screw Trig Subproblems SubproblemFacts.
Import ListNotations.
Open Scope R_scope.

Lemma binet : forall a b c d, dot (cross a b) (cross c d) = dot a c * dot b d - dot a d * dot b c.
Proof. vring. Qed.

Lemma sq_le : forall x y, 0 <= x -> 0 <= y -> x * x <= y * y -> x <= y.
Proof. intros x y X Y H. apply Rsqr_incr_0_var; auto. Qed.

Section OFF.
  Variables (id1 id2 : nat) (a1 a2 o1 o2 p : vec) (rhs pt : frame) (t1 t2 : R) (w : vec).
  Hypothesis U1 : unit a1.
  Hypothesis U2 : unit a2.
  Hypothesis NZ : cross a2 a1 <> vzero.
  Hypothesis W1 : dot a1 w = 0.
  Hypothesis W2 : dot a2 w = 0.
  Hypothesis K : fapp rhs p = vadd (move2 (E TRANSLATION a1 o1) (E TRANSLATION a2 o2) t1 t2 (fapp pt p)) w.

  Let X := cross a2 a1.
  Let r := norm (cross a2 (vsub (fapp pt p) (fapp rhs p))) / norm X.

  Lemma X_pos : 0 < norm X.
  Proof. pose proof (norm_nonneg X). destruct (Req_dec (norm X) 0) as [Z|]; [apply norm_zero in Z; contradiction | lra]. Qed.

  Lemma cross_target : cross a2 (vsub (fapp pt p) (fapp rhs p)) = vsub (vscale (- t1) X) (cross a2 w).
  Proof. rewrite K. unfold move2. rewrite !move_trans. unfold X. vring. Qed.

  Lemma along : dot (cross a2 (vsub (fapp pt p) (fapp rhs p))) X = - t1 * (norm X * norm X).
  Proof.
    rewrite cross_target, dot_sub_l, dot_scale_l, norm_sqr.
    replace (dot (cross a2 w) X) with 0. 2:{ unfold X. rewrite binet, (dot_comm w a2), W2, (dot_comm w a1), W1. ring. } ring.
  Qed.

  Lemma cross_sqr : dot (cross a2 (vsub (fapp pt p) (fapp rhs p))) (cross a2 (vsub (fapp pt p) (fapp rhs p)))
    = t1 * t1 * (norm X * norm X) + dot w w.
  Proof.
    rewrite cross_target, !dot_sub_l, !dot_sub_r, !dot_scale_l, !dot_scale_r, norm_sqr.
    rewrite (dot_comm X (cross a2 w)).
    replace (dot (cross a2 w) X) with 0. 2:{ unfold X. rewrite binet, (dot_comm w a2), W2, (dot_comm w a1), W1. ring. }
    replace (dot (cross a2 w) (cross a2 w)) with (dot w w). 2:{ rewrite binet, (dot_comm w a2), W2. unfold unit in U2. rewrite U2. ring. }
    ring.
  Qed.

  Lemma r_sqr : r * r * (norm X * norm X) = t1 * t1 * (norm X * norm X) + dot w w.
  Proof. pose proof X_pos. rewrite <- cross_sqr, <- norm_sqr. unfold r. field. lra. Qed.

  Lemma r_nonneg : 0 <= r.
  Proof.
    pose proof X_pos. unfold r. apply Rmult_le_pos; [apply norm_nonneg|]. apply Rlt_le, Rinv_0_lt_compat; auto.
  Qed.

  Lemma solved : exists q th2,
    pg2_solve id1 id2 (E TRANSLATION a1 o1) (E TRANSLATION a2 o2) p rhs pt = Some (true, [[(id1, q); (id2, th2)]]) /\
    (q = r \/ q = - r /\ norm (cross a2 (vsub (fapp pt p) (fapp rhs p))) * norm X <= - t1 * (norm X * norm X)) /\
    (q = - r \/ q = r /\ - t1 * (norm X * norm X) < norm (cross a2 (vsub (fapp pt p) (fapp rhs p))) * norm X) /\
    dot (vsub (move2 (E TRANSLATION a1 o1) (E TRANSLATION a2 o2) q th2 (fapp pt p)) (fapp rhs p))
        (vsub (move2 (E TRANSLATION a1 o1) (E TRANSLATION a2 o2) q th2 (fapp pt p)) (fapp rhs p))
    = (q - t1) * (q - t1) * (norm X * norm X) + dot w w.
  Proof.
    pose proof X_pos as XP. unfold pg2_solve. cbn [e_axis]. fold X. unfold fdiv.
    rewrite (proj2 (Reqb_false (norm X) 0)) by lra. cbn [obind]. fold r. rewrite along.
    assert (G : forall q, dot (vsub (move2 (E TRANSLATION a1 o1) (E TRANSLATION a2 o2) q
         (dot a2 (vsub (vsub (fapp rhs p) (vscale q a1)) (fapp pt p))) (fapp pt p)) (fapp rhs p))
        (vsub (move2 (E TRANSLATION a1 o1) (E TRANSLATION a2 o2) q
         (dot a2 (vsub (vsub (fapp rhs p) (vscale q a1)) (fapp pt p))) (fapp pt p)) (fapp rhs p))
      = (q - t1) * (q - t1) * (norm X * norm X) + dot w w).
    { intro q. unfold move2. rewrite !move_trans.
      set (v := vsub _ _). 
      assert (T : dot a2 (vsub (vsub (fapp rhs p) (vscale q a1)) (fapp pt p)) = t2 - (q - t1) * dot a2 a1).
      { rewrite K. unfold move2. rewrite !move_trans.
        rewrite !dot_sub_r, !dot_add_r, !dot_scale_r, W2, U2. ring. }
      subst v. rewrite T.
      replace (vsub (vadd (vadd (fapp pt p) (vscale (t2 - (q - t1) * dot a2 a1) a2)) (vscale q a1)) (fapp rhs p))
        with (vsub (vscale (q - t1) (vsub a1 (vscale (dot a2 a1) a2))) w).
      2:{ rewrite K. unfold move2. rewrite !move_trans. set (g := dot a2 a1). vlin. }
      rewrite norm_sqr. unfold X. rewrite lagrange, U1, U2.
      rewrite !dot_sub_l, !dot_sub_r, !dot_scale_l, !dot_scale_r, !dot_sub_l, !dot_sub_r, !dot_scale_l, !dot_scale_r.
      rewrite (dot_comm w a1), (dot_comm w a2), W1, W2, (dot_comm a1 a2), U1, U2. ring. }
    destruct (Rleb _ _) eqn:C; [apply Rleb_true in C | apply Rleb_false in C].
    - exists (- r), (dot a2 (vsub (vsub (fapp rhs p) (vscale (- r) a1)) (fapp pt p))).
      split; [|split; [right; auto | split; [left; auto | apply G]]].
      f_equal. f_equal. f_equal. f_equal.
      + f_equal. replace (vsub (fapp rhs p) (vadd (fapp rhs p) (vscale r a1))) with (vscale (- r) a1) by vlin.
        rewrite dot_scale_r, U1. ring.
      + f_equal. f_equal. f_equal. f_equal. vlin.
    - exists r, (dot a2 (vsub (vsub (fapp rhs p) (vscale r a1)) (fapp pt p))).
      split; [|split; [left; auto | split; [right; split; [reflexivity | lra] | apply G]]].
      f_equal. f_equal. f_equal. f_equal.
      f_equal. replace (vsub (fapp rhs p) (vsub (fapp rhs p) (vscale r a1))) with (vscale r a1) by vlin.
      rewrite dot_scale_r, U1. ring.
  Qed.

  Lemma off_good : 0 <= t1 -> exists th1 th2,
    pg2_solve id1 id2 (E TRANSLATION a1 o1) (E TRANSLATION a2 o2) p rhs pt = Some (true, [[(id1, th1); (id2, th2)]]) /\
    dist (move2 (E TRANSLATION a1 o1) (E TRANSLATION a2 o2) th1 th2 (fapp pt p)) (fapp rhs p) <= 3 / 2 * norm w.
  Proof.
    intro T. destruct solved as (q & th2 & S & Q & _ & D). exists q, th2. split; [exact S|].
    pose proof r_sqr as RS. pose proof r_nonneg as RN. pose proof X_pos as XP. pose proof (norm_nonneg w) as WN.
    assert (Qr : q = r).
    { destruct Q as [|[Q L]]; auto.
      pose proof (norm_nonneg (cross a2 (vsub (fapp pt p) (fapp rhs p)))) as CN.
      assert (0 <= norm (cross a2 (vsub (fapp pt p) (fapp rhs p))) * norm X) by nra.
      assert (Z : norm (cross a2 (vsub (fapp pt p) (fapp rhs p))) = 0) by nra.
      assert (r = 0) by (unfold r; rewrite Z; unfold Rdiv; ring). lra. }
    unfold dist. apply sq_le; [apply norm_nonneg | lra |]. rewrite norm_sqr, D.
    replace (3 / 2 * norm w * (3 / 2 * norm w)) with (9 / 4 * (norm w * norm w)) by field. rewrite (norm_sqr w).
    pose proof (dot_self_nonneg w) as WW. set (n := norm X * norm X) in *. assert (0 < n) by (unfold n; nra).
    rewrite Qr.
    assert (t1 <= r). { apply sq_le; auto. apply Rmult_le_reg_r with n; lra. }
    assert ((r - t1) * (r - t1) * n <= dot w w); [|lra].
    replace (dot w w) with ((r * r - t1 * t1) * n) by lra. apply Rmult_le_compat_r; nra.
  Qed.

  Lemma off_bad : t1 < 0 -> w <> vzero -> exists th1 th2,
    pg2_solve id1 id2 (E TRANSLATION a1 o1) (E TRANSLATION a2 o2) p rhs pt = Some (true, [[(id1, th1); (id2, th2)]]) /\
    2 * - t1 * norm (cross a2 a1) <= dist (move2 (E TRANSLATION a1 o1) (E TRANSLATION a2 o2) th1 th2 (fapp pt p)) (fapp rhs p).
  Proof.
    intros T WZ. destruct solved as (q & th2 & S & Q & _ & D). exists q, th2. split; [exact S|].
    pose proof r_sqr as RS. pose proof r_nonneg as RN. pose proof X_pos as XP. fold X.
    assert (WW : 0 < dot w w).
    { destruct (Rle_lt_or_eq_dec _ _ (dot_self_nonneg w)) as [|Z]; auto. symmetry in Z. apply dot_self_zero in Z. contradiction. }
    assert (LT : - t1 < r). { destruct (Rlt_le_dec (- t1) r); auto. exfalso. set (n := norm X * norm X) in *.
      assert (0 < n) by (unfold n; nra). assert (r * r <= t1 * t1) by nra. nra. }
    assert (Qr : q = r).
    { destruct Q as [|[Q L]]; auto. exfalso.
      assert (E : norm (cross a2 (vsub (fapp pt p) (fapp rhs p))) = r * norm X) by (unfold r; field; lra).
      rewrite E in L. assert (0 < norm X * norm X) by nra. nra. }
    unfold dist. apply sq_le; [| apply norm_nonneg |]. { nra. } rewrite norm_sqr, D, Qr.
    replace (2 * - t1 * norm X * (2 * - t1 * norm X)) with (2 * - t1 * (2 * - t1) * (norm X * norm X)) by ring.
    set (n := norm X * norm X) in *. assert (0 < n) by (unfold n; nra).
    assert (2 * - t1 * (2 * - t1) * n <= (r - t1) * (r - t1) * n) by (apply Rmult_le_compat_r; nra). lra.
  Qed.
End OFF.

Definition ox : mexp := E TRANSLATION (V 1 0 0) vzero.
Definition oy : mexp := E TRANSLATION (V 0 1 0) vzero.

Lemma unit_oy : unit (V 0 1 0). Proof. unfold unit; vunf; ring. Qed.
Lemma cross_ox : cross (V 0 1 0) (V 1 0 0) <> vzero.
Proof. intro H. apply (f_equal vz) in H. revert H. vunf. cbn. lra. Qed.

Lemma near_bad : forall eps, 0 < eps -> exists id1 id2 e1 e2 p rhs pt t1 t2 th1 th2,
  unit (e_axis e1) /\ unit (e_axis e2) /\ e_motion e1 = TRANSLATION /\ e_motion e2 = TRANSLATION /\
  dot (e_axis e1) (e_axis e2) = 0 /\ rigid rhs /\ rigid pt /\
  dist (move2 e1 e2 t1 t2 (fapp pt p)) (fapp rhs p) <= eps /\
  pg2_solve id1 id2 e1 e2 p rhs pt = Some (true, [[(id1, th1); (id2, th2)]]) /\
  1 <= dist (move2 e1 e2 th1 th2 (fapp pt p)) (fapp rhs p).
Proof.
  intros eps EP. 
  destruct (off_bad 0 1 (V 1 0 0) (V 0 1 0) vzero vzero vzero (ftrans (V (-1) 0 eps)) fid (-1) 0 (V 0 0 eps)
    unit_ex unit_oy cross_ox) as (th1 & th2 & S & D).
  { vunf; cbn; ring. } { vunf; cbn; ring. }
  { unfold move2. rewrite !move_trans, fapp_id. unfold ftrans, fapp, mid. vunf. cbn. f_equal; ring. }
  { lra. } { intro H. apply (f_equal vz) in H. cbn in H. lra. }
  exists 0%nat, 1%nat, ox, oy, vzero, (ftrans (V (-1) 0 eps)), fid, (-1), 0, th1, th2.
  split; [apply unit_ex|]. split; [apply unit_oy|]. split; [reflexivity|]. split; [reflexivity|].
  split; [cbn; vunf; cbn; ring|]. split; [apply rigid_trans|]. split; [apply rigid_id|]. split; [|split; [exact S|]].
  - unfold move2, ox, oy. rewrite !move_trans, fapp_id. unfold dist. apply sq_le; [apply norm_nonneg | lra |].
    rewrite norm_sqr. unfold ftrans, fapp, mid. vunf. cbn. right. ring.
  - apply Rle_trans with (2 := D).
    assert (N : norm (cross (V 0 1 0) (V 1 0 0)) = 1).
    { unfold norm. replace (dot _ _) with 1 by (vunf; cbn; ring). apply sqrt_1. }
    rewrite N. lra.
Qed.

Lemma ex_near : unit (V 1 0 0) /\ unit (V 0 1 0) /\ cross (V 0 1 0) (V 1 0 0) <> vzero /\
  dot (V 1 0 0) (V 0 0 1) = 0 /\ dot (V 0 1 0) (V 0 0 1) = 0 /\ V 0 0 1 <> vzero /\
  fapp (ftrans (V 3 4 1)) (V 1 1 1)
  = vadd (move2 (E TRANSLATION (V 1 0 0) vzero) (E TRANSLATION (V 0 1 0) vzero) 3 4 (fapp fid (V 1 1 1))) (V 0 0 1).
Proof.
  split; [apply unit_ex|]. split; [apply unit_oy|]. split; [apply cross_ox|].
  split; [vunf; cbn; ring|]. split; [vunf; cbn; ring|].
  split. { intro H. apply (f_equal vz) in H. cbn in H. lra. }
  unfold move2. rewrite !move_trans, fapp_id. unfold ftrans, fapp, mid. vunf. cbn. f_equal; ring.
Qed.

Lemma ex_near2 :
  fapp (ftrans (V (-3) 4 1)) (V 1 1 1)
  = vadd (move2 (E TRANSLATION (V 1 0 0) vzero) (E TRANSLATION (V 0 1 0) vzero) (-3) 4 (fapp fid (V 1 1 1))) (V 0 0 1).
Proof. unfold move2. rewrite !move_trans, fapp_id. unfold ftrans, fapp, mid. vunf. cbn. f_equal; ring. Qed.
