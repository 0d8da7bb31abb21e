(** Proofs about the two-joint and distance subproblems. *)
From Coq Require Import Reals Lra List Bool Psatz.
From Verif Require Import Kdl KdlFacts Screw ScrewFacts Trig TrigFacts Subproblems SubproblemFacts.
Import ListNotations.
Open Scope R_scope.

Lemma pk1_complete' : forall id a o p rhs pt t, unit a ->
  move1 (E ROTATION a o) t (fapp pt p) = fapp rhs p ->
  exists th, pk1_solve id (E ROTATION a o) p rhs pt = Some (true, [[(id, th)]]) /\
    reaches1 (E ROTATION a o) (fapp pt p) (fapp rhs p) th.
Proof. intros id a o p rhs pt t U H. destruct (pk1_complete id a o p rhs pt t U H) as (th & A & B). exists th; split; auto. Qed.

Lemma snap_rot_perp : forall a t u, unit a -> - (3 * PI) < t < 3 * PI ->
  norm (vsub (mv (Rot2 a (normalizeAngle t)) u) (mv (Rot2 a t) u)) <= kdl_eps * norm (perp a u).
Proof.
  intros a t u U Ht. destruct (snap_rot a t (perp a u) U Ht) as (_ & _ & N).
  rewrite (rot_split a (normalizeAngle t)), (rot_split a t u) by auto.
  match goal with |- norm ?x <= _ => replace x with
    (vsub (mv (Rot2 a (normalizeAngle t)) (perp a u)) (mv (Rot2 a t) (perp a u))) by vlin end. exact N.
Qed.

Lemma perp_le : forall a u, unit a -> norm (perp a u) <= norm u.
Proof.
  intros a u U. apply norm_le_sqr; [apply norm_nonneg|]. rewrite norm_sqr, perp_norm2 by auto. nra.
Qed.
Lemma perp_axis : forall a s, unit a -> perp a (vscale s a) = vzero.
Proof. intros a s U; unfold perp; rewrite dot_scale_r, U; vlin. Qed.

Lemma move_origin : forall a r s t x, unit a ->
  move1 (E ROTATION a (vadd r (vscale s a))) t x = move1 (E ROTATION a r) t x.
Proof.
  intros a r s t x U. rewrite !move_rot by auto.
  replace (vsub x (vadd r (vscale s a))) with (vsub (vsub x r) (vscale s a)) by vlin.
  rewrite mv_sub, mv_scale, Rot2_axis by auto. vlin.
Qed.

(** A pair of rotations going through a given intermediate point. *)
Lemma pair_through : forall a1 o1 a2 o2 f k c, unit a1 -> unit a2 ->
  dot a2 (vsub f o2) = dot a2 (vsub c o2) -> dot (vsub f o2) (vsub f o2) = dot (vsub c o2) (vsub c o2) ->
  dot a1 (vsub c o1) = dot a1 (vsub k o1) -> dot (vsub c o1) (vsub c o1) = dot (vsub k o1) (vsub k o1) ->
  let th1 := normalizeAngle (raw_angle a1 (vsub c o1) (vsub k o1)) in
  let th2 := normalizeAngle (raw_angle a2 (vsub f o2) (vsub c o2)) in
  - PI < th1 <= PI /\ - PI < th2 <= PI /\
  (th1 <> PI -> th2 <> PI -> move2 (E ROTATION a1 o1) (E ROTATION a2 o2) th1 th2 f = k) /\
  dist (move2 (E ROTATION a1 o1) (E ROTATION a2 o2) th1 th2 f) k
    <= kdl_eps * (norm (perp a2 (vsub f o2)) + norm (perp a1 (vsub k o1))) /\
  (th2 <> PI -> move1 (E ROTATION a2 o2) th2 f = c) /\
  dist (move1 (E ROTATION a2 o2) th2 f) c <= kdl_eps * norm (perp a2 (vsub f o2)).
Proof.
  intros a1 o1 a2 o2 f k c U1 U2 A2 N2 A1 N1 th1 th2.
  destruct (snap_rot a2 _ (vsub f o2) U2 (raw_range a2 (vsub f o2) (vsub c o2))) as (B2 & X2 & _).
  destruct (snap_rot a1 _ (vsub c o1) U1 (raw_range a1 (vsub c o1) (vsub k o1))) as (B1 & X1 & _).
  pose proof (snap_rot_perp a2 _ (vsub f o2) U2 (raw_range a2 (vsub f o2) (vsub c o2))) as E2.
  pose proof (snap_rot_perp a1 _ (vsub c o1) U1 (raw_range a1 (vsub c o1) (vsub k o1))) as E1.
  rewrite raw_angle_rot in X2, E2 by auto. rewrite raw_angle_rot in X1, E1 by auto.
  fold th2 in B2, X2, E2. fold th1 in B1, X1, E1.
  assert (Q : norm (perp a1 (vsub c o1)) = norm (perp a1 (vsub k o1)))
    by (apply norm_eq_iff; rewrite !perp_norm2, A1, N1; auto).
  rewrite Q in E1.
  assert (M2 : forall t, vsub (move1 (E ROTATION a2 o2) t f) c = vsub (mv (Rot2 a2 t) (vsub f o2)) (vsub c o2))
    by (intro; rewrite move_rot by auto; vlin).
  assert (D2 : dist (move1 (E ROTATION a2 o2) th2 f) c <= kdl_eps * norm (perp a2 (vsub f o2)))
    by (unfold dist; rewrite M2; exact E2).
  assert (X2' : th2 <> PI -> move1 (E ROTATION a2 o2) th2 f = c)
    by (intro Z; rewrite move_rot, X2 by auto; vlin).
  assert (X1' : th1 <> PI -> move1 (E ROTATION a1 o1) th1 c = k)
    by (intro Z; rewrite move_rot, X1 by auto; vlin).
  repeat match goal with |- _ /\ _ => split end; auto; try lra.
  - intros Z1 Z2. unfold move2. rewrite X2', X1'; auto.
  - unfold move2, dist. eapply Rle_trans; [apply (norm_triangle3 _ (move1 (E ROTATION a1 o1) th1 c))|].
    rewrite Rmult_plus_distr_l. apply Rplus_le_compat.
    + unfold move1. rewrite fapp_sub. unfold dist, move1 in D2.
      rewrite norm_rot; auto. apply (asFrame_rigid (E ROTATION a1 o1)); auto.
    + rewrite move_rot by auto.
      match goal with |- norm ?x <= _ => replace x with
         (vsub (mv (Rot2 a1 th1) (vsub c o1)) (vsub k o1)) by vlin end. exact E1.
Qed.

(** ** PK2 *)
Lemma basis_decomp : forall a b z,
  vscale (dot (cross a b) (cross a b)) z =
  vadd (vadd (vscale (dot a z * dot b b - dot b z * dot a b) a) (vscale (dot b z * dot a a - dot a z * dot a b) b))
       (vscale (dot z (cross a b)) (cross a b)).
Proof. vring. Qed.

Section PK2.
  Variables a1 a2 : vec.
  Hypothesis U1 : unit a1.
  Hypothesis U2 : unit a2.
  Let d := dot a1 a2.
  Let w := cross a1 a2.
  Let W := 1 - d * d.
  Hypothesis NW : W <> 0.

  Lemma w_norm : dot w w = W.
  Proof. unfold w, W, d. rewrite lagrange, U1, U2. ring. Qed.

  (** components of a point in the basis a1, a2, w *)
  Definition comb (al be ga : R) : vec := vadd (vadd (vscale al a1) (vscale be a2)) (vscale ga w).

  Lemma comb_dot1 : forall al be ga, dot a1 (comb al be ga) = al + be * d.
  Proof. intros; unfold comb, w. rewrite !dot_add_r, !dot_scale_r, U1, dot_cross_l. fold d. ring. Qed.
  Lemma comb_dot2 : forall al be ga, dot a2 (comb al be ga) = al * d + be.
  Proof. intros; unfold comb, w. rewrite !dot_add_r, !dot_scale_r, U2, dot_cross_r, (dot_comm a2 a1). fold d. ring. Qed.
  Lemma comb_norm : forall al be ga, dot (comb al be ga) (comb al be ga) = al * al + be * be + 2 * al * be * d + ga * ga * W.
  Proof.
    intros. unfold comb at 1. rewrite !dot_add_l, !dot_scale_l, comb_dot1, comb_dot2.
    unfold comb, w. rewrite !dot_add_r, !dot_scale_r. rewrite (dot_comm _ a1), (dot_comm _ a2), dot_cross_l, dot_cross_r.
    fold w. rewrite w_norm. ring.
  Qed.
  Lemma comb_of : forall z, z = comb ((dot a1 z - d * dot a2 z) / W) ((dot a2 z - d * dot a1 z) / W) (dot z w / W).
  Proof.
    intro z. pose proof (basis_decomp a1 a2 z) as B. fold w in B. rewrite w_norm, U1, U2 in B. fold d in B.
    unfold comb. unfold vadd, vscale in *. cbn [vx vy vz] in *. injection B; intros Bz By Bx.
    apply vec_eq; cbn [vx vy vz]; apply Rmult_eq_reg_l with W; auto.
    - transitivity ((dot a1 z * 1 - dot a2 z * d) * vx a1 + (dot a2 z * 1 - dot a1 z * d) * vx a2 + dot z w * vx w);
        [exact Bx | field; auto].
    - transitivity ((dot a1 z * 1 - dot a2 z * d) * vy a1 + (dot a2 z * 1 - dot a1 z * d) * vy a2 + dot z w * vy w);
        [exact By | field; auto].
    - transitivity ((dot a1 z * 1 - dot a2 z * d) * vz a1 + (dot a2 z * 1 - dot a1 z * d) * vz a2 + dot z w * vz w);
        [exact Bz | field; auto].
  Qed.

  Variables (id1 id2 : nat) (s1 s2 : R) (p r : vec) (rhs pt : frame).
  Let e1 := E ROTATION a1 (vadd r (vscale s1 a1)).
  Let e2 := E ROTATION a2 (vadd r (vscale s2 a2)).
  Let f := fapp pt p.
  Let k := fapp rhs p.
  Let u := vsub f r.
  Let v := vsub k r.
  Let al := (dot a1 v - d * dot a2 u) / W.
  Let be := (dot a2 u - d * dot a1 v) / W.
  Let g2 := (dot u u - al * al - be * be - 2 * al * be * d) / W.

  Definition pk2_pair (z : vec) : local_solution :=
    [(id1, normalizeAngle (raw_angle a1 z v)); (id2, normalizeAngle (raw_angle a2 u z))].

  Lemma pk2_unfold : pk2_solve id1 id2 e1 e2 p r rhs pt =
    if negb (Equal g2 0) && Rltb 0 g2
    then Some (Equal (norm (perp a1 (comb al be (- sqrt g2)))) (norm (perp a1 v)),
               [pk2_pair (comb al be (- sqrt g2)); pk2_pair (comb al be (sqrt g2))])
    else Some (Equal g2 0 && Equal (norm (perp a1 (comb al be 0))) (norm (perp a1 v)),
               [pk2_pair (comb al be 0); pk2_pair (comb al be 0)]).
  Proof.
    unfold pk2_solve, e1, e2. cbn [e_axis e_origin]. fold f k. fold u v. fold d. fold w.
    assert (DEN : pow2 d - 1 = - W) by (unfold pow2, W; ring). rewrite DEN.
    unfold fdiv. rewrite (proj2 (Reqb_false (- W) 0)) by lra. cbn [obind].
    replace ((d * dot a2 u - dot a1 v) / - W) with al by (unfold al; field; auto).
    replace ((d * dot a1 v - dot a2 u) / - W) with be by (unfold be; field; auto).
    assert (N2 : pow2 (norm w) = W) by (unfold pow2; rewrite norm_sqr; apply w_norm).
    assert (N3 : pow2 (norm u) = dot u u) by (unfold pow2; apply norm_sqr).
    rewrite N2, N3. rewrite (proj2 (Reqb_false W 0)) by auto. cbn [obind].
    replace ((dot u u - pow2 al - pow2 be - 2 * al * be * d) / W) with g2 by (unfold g2, pow2; reflexivity).
    rewrite !perp_eq.
    assert (Cm : forall x, vsub (vsub (vadd (vadd r (vscale al a1)) (vscale be a2)) (vscale x w)) r = comb al be (- x))
      by (intro; unfold comb; vlin).
    assert (Cp : forall x, vsub (vadd (vadd (vadd r (vscale al a1)) (vscale be a2)) (vscale x w)) r = comb al be x)
      by (intro; unfold comb; vlin).
    assert (C0 : vsub (vadd (vadd r (vscale al a1)) (vscale be a2)) r = comb al be 0) by (unfold comb; vlin).
    rewrite Cm, Cp, C0. reflexivity.
  Qed.

  Lemma W_pos : 0 < W.
  Proof.
    pose proof w_norm as H. pose proof (dot_self_nonneg w) as P. rewrite H in P. lra.
  Qed.

  Lemma pk2_pair_ok : forall ga, dot u u = dot v v -> ga * ga = g2 ->
    let z := comb al be ga in
    let th1 := normalizeAngle (raw_angle a1 z v) in
    let th2 := normalizeAngle (raw_angle a2 u z) in
    reaches2 e1 e2 f k th1 th2 /\
    (th2 <> PI -> move1 e2 th2 f = vadd r z) /\
    dist (move1 e2 th2 f) (vadd r z) <= kdl_eps * dist f (e_origin e2) /\
    norm (perp a1 z) = norm (perp a1 v).
  Proof.
    intros ga UV G z th1 th2.
    assert (Z1 : dot a1 z = dot a1 v) by (unfold z; rewrite comb_dot1; unfold al, be; field_simplify; auto; unfold W; field; fold W; auto).
    assert (Z2 : dot a2 u = dot a2 z) by (unfold z; rewrite comb_dot2; unfold al, be; field_simplify; auto; unfold W; field; fold W; auto).
    assert (Z3 : dot z z = dot u u).
    { unfold z. rewrite comb_norm, G. unfold g2. field; auto. }
    assert (PA : norm (perp a1 z) = norm (perp a1 v)).
    { apply norm_eq_iff. rewrite !perp_norm2, Z1, Z3, UV by auto. reflexivity. }
    assert (VZ : vsub (vadd r z) r = z) by (destruct z; vlin).
    destruct (pair_through a1 r a2 r f k (vadd r z) U1 U2) as (B1 & B2 & X & D & X2 & D2); fold u v;
      rewrite ?VZ; auto; [congruence..|]. fold u v in B1, B2, X, D, X2, D2. rewrite VZ in B1, B2, X, D, X2, D2.
    fold th1 in B1, X, D. fold th2 in B2, X, D, X2, D2.
    assert (P2 : norm (perp a2 u) <= dist f (e_origin e2)).
    { unfold dist, e2; cbn [e_origin]. replace (perp a2 u) with (perp a2 (vsub f (vadd r (vscale s2 a2)))).
      - apply perp_le; auto.
      - replace (vsub f (vadd r (vscale s2 a2))) with (vsub u (vscale s2 a2)) by (unfold u; vlin).
        rewrite perp_sub, perp_axis by auto. destruct (perp a2 u); vlin. }
    assert (P1 : norm (perp a1 v) <= dist k (e_origin e1)).
    { unfold dist, e1; cbn [e_origin]. replace (perp a1 v) with (perp a1 (vsub k (vadd r (vscale s1 a1)))).
      - apply perp_le; auto.
      - replace (vsub k (vadd r (vscale s1 a1))) with (vsub v (vscale s1 a1)) by (unfold v; vlin).
        rewrite perp_sub, perp_axis by auto. destruct (perp a1 v); vlin. }
    pose proof kdl_eps_pos.
    unfold reaches2, move2, e1, e2. rewrite !move_origin by auto.
    unfold move2 in X, D. repeat match goal with |- _ /\ _ => split end; auto; try lra.
    - eapply Rle_trans; [exact D|]. apply Rmult_le_compat_l; [lra|]. fold e1 e2. lra.
    - eapply Rle_trans; [exact D2|]. apply Rmult_le_compat_l; [lra|]. fold e2. lra.
  Qed.

  Lemma pk2_main : forall t1 t2, move2 e1 e2 t1 t2 f = k ->
    let ga := dot (vsub (move1 e2 t2 f) r) w / W in
    (ga = 0 \/ kdl_eps <= ga * ga) ->
    exists th11 th21 th12 th22,
      pk2_solve id1 id2 e1 e2 p r rhs pt = Some (true, [[(id1, th11); (id2, th21)]; [(id1, th12); (id2, th22)]]) /\
      reaches2 e1 e2 f k th11 th21 /\ reaches2 e1 e2 f k th12 th22 /\
      (((th21 <> PI -> move1 e2 th21 f = move1 e2 t2 f) /\ dist (move1 e2 th21 f) (move1 e2 t2 f) <= kdl_eps * dist f (e_origin e2)) \/
       ((th22 <> PI -> move1 e2 th22 f = move1 e2 t2 f) /\ dist (move1 e2 th22 f) (move1 e2 t2 f) <= kdl_eps * dist f (e_origin e2))).
  Proof.
    intros t1 t2 H ga G.
    set (c := move1 e2 t2 f) in *. set (z := vsub c r) in *.
    assert (C : c = vadd r z) by (unfold z; vlin).
    assert (Z2 : z = mv (Rot2 a2 t2) u).
    { unfold z, c, e2. rewrite move_origin by auto. apply move_rot_sub; auto. }
    assert (V1 : v = mv (Rot2 a1 t1) z).
    { unfold v. rewrite <- H. unfold move2. fold c. unfold e1. rewrite move_origin by auto. apply move_rot_sub; auto. }
    assert (D1 : dot a1 v = dot a1 z) by (rewrite V1; apply rot_axis_dot; auto).
    assert (D2 : dot a2 z = dot a2 u) by (rewrite Z2; apply rot_axis_dot; auto).
    assert (Nz : dot z z = dot u u) by (rewrite Z2; apply dot_rot, Rot2_rot; auto).
    assert (Nv : dot v v = dot z z) by (rewrite V1; apply dot_rot, Rot2_rot; auto).
    assert (Zc : z = comb al be ga).
    { rewrite (comb_of z) at 1. unfold al, be, ga. rewrite D1, D2. reflexivity. }
    assert (G2 : ga * ga = g2).
    { unfold g2. rewrite <- Nz, Zc, comb_norm. field; auto. }
    assert (UV : dot u u = dot v v) by congruence.
    rewrite pk2_unfold. pose proof kdl_eps_pos.
    destruct G as [G | G].
    - assert (Z0 : g2 = 0) by (rewrite <- G2, G; ring). rewrite Z0, Equal_refl. cbn [negb andb].
      destruct (pk2_pair_ok 0 UV) as (R & X & D & N); [rewrite Z0; ring|].
      rewrite N, Equal_refl. do 4 eexists. split; [reflexivity|]. split; [exact R|]. split; [exact R|].
      left. rewrite C, Zc, G. auto.
    - rewrite G2 in G. assert (NE : Equal g2 0 = false).
      { apply Equal_false. rewrite Rminus_0_r, Rabs_pos_eq; lra. }
      rewrite NE. rewrite (proj2 (Rltb_true 0 g2)) by lra. cbn [negb andb].
      assert (SQ : sqrt g2 * sqrt g2 = g2) by (apply sqrt_sqrt; lra).
      destruct (pk2_pair_ok (sqrt g2) UV SQ) as (R1 & X1 & E1 & N1).
      destruct (pk2_pair_ok (- sqrt g2) UV ltac:(lra)) as (R2 & X2 & E2 & N2).
      rewrite N2, Equal_refl. do 4 eexists. split; [reflexivity|]. split; [exact R2|]. split; [exact R1|].
      assert (CS : ga = sqrt g2 \/ ga = - sqrt g2).
      { rewrite <- G2. destruct (Rle_dec 0 ga).
        - left. rewrite sqrt_square; auto.
        - right. replace (ga * ga) with ((- ga) * (- ga)) by ring. rewrite sqrt_square; lra. }
      rewrite C, Zc. destruct CS as [-> | ->]; [right | left]; auto.
  Qed.
End PK2.

(** a target on the arm's own present position, half a millimetre off the first axis, is
    reported unreachable *)
Lemma pk2_unreachable_ex : exists id1 id2 e1 e2 p r rhs pt s1 s2 sols,
  unit (e_axis e1) /\ unit (e_axis e2) /\ dot (e_axis e1) (e_axis e2) = 0 /\
  e_origin e1 = vadd r (vscale s1 (e_axis e1)) /\ e_origin e2 = vadd r (vscale s2 (e_axis e2)) /\
  e_motion e1 = ROTATION /\ e_motion e2 = ROTATION /\ rigid rhs /\ rigid pt /\
  move2 e1 e2 0 0 (fapp pt p) = fapp rhs p /\
  pk2_solve id1 id2 e1 e2 p r rhs pt = Some (false, sols).
Proof.
  set (g := 5 / 10000).
  exists O, 1%nat, (E ROTATION (V 0 0 1) (vadd vzero (vscale 0 (V 0 0 1)))), (E ROTATION (V 1 0 0) (vadd vzero (vscale 0 (V 1 0 0)))),
    (V 0 g 1), vzero, fid, fid, 0, 0. eexists.
  cbn [e_axis e_origin e_motion]. split; [apply unit_ez|]. split; [apply unit_ex|].
  assert (D : dot (V 0 0 1) (V 1 0 0) = 0) by (vunf; ring).
  do 5 (split; [auto|]). split; [apply rigid_id|]. split; [apply rigid_id|]. split.
  - unfold move2, move1. rewrite !asFrame_0 by (apply unit_ez || apply unit_ex). rewrite !fapp_id. reflexivity.
  - rewrite pk2_unfold; try apply unit_ez; try apply unit_ex; [|rewrite D; lra].
    rewrite !fapp_id, D.
    replace (vsub (V 0 g 1) vzero) with (V 0 g 1) by vring.
    replace (dot (V 0 0 1) (V 0 g 1)) with 1 by (vunf; ring).
    replace (dot (V 1 0 0) (V 0 g 1)) with 0 by (vunf; ring).
    replace (dot (V 0 g 1) (V 0 g 1)) with (g * g + 1) by (vunf; ring).
    match goal with |- context [Equal ?x 0] => replace x with (g * g) by field end.
    rewrite (proj2 (Equal_true (g * g) 0)).
    2:{ rewrite Rminus_0_r, Rabs_pos_eq; unfold g, kdl_eps; lra. }
    cbn [negb andb].
    match goal with |- context [norm (perp ?a (comb ?b ?c ?d ?e ?f))] =>
      replace (perp a (comb b c d e f)) with vzero end.
    2:{ unfold perp, comb. vunf. apply vec_eq; cbn; field. }
    replace (perp (V 0 0 1) (V 0 g 1)) with (vscale g (V 0 1 0)) by (unfold perp; vring).
    rewrite norm_scale, (unit_norm _ unit_ey). unfold norm at 1. rewrite dot_zero_l, sqrt_0.
    rewrite (proj2 (Equal_false _ _)).
    2:{ rewrite (Rabs_pos_eq g) by (unfold g; lra). rewrite Rabs_left; unfold g, kdl_eps; lra. }
    reflexivity.
Qed.
