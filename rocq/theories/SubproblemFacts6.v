(** The rotation subproblems return the very angle that was used, when the target determines it. *)
From Coq Require Import Reals Lra List Bool Psatz.
From Verif Require Import Kdl KdlFacts Screw ScrewFacts Trig TrigFacts Subproblems SubproblemFacts SubproblemFacts2 SubproblemFacts3 SubproblemSpec2.
Import ListNotations.
Open Scope R_scope.

Lemma angle_eq : forall s t, - (2 * PI) < s - t < 2 * PI -> cos s = cos t -> sin s = sin t -> s = t.
Proof.
  intros s t B C S. assert (H : cos (s - t) = 1).
  { rewrite cos_minus, C, S. pose proof (sin2_cos2 t). unfold Rsqr in *. lra. }
  set (d := s - t) in *. assert (Z : sin (d / 2) = 0).
  { pose proof (cos_2a_sin (d / 2)) as Q. replace (2 * (d / 2)) with d in Q by field. rewrite H in Q. nra. }
  assert (d = 0); [|unfold d in *; lra].
  destruct (Rtotal_order d 0) as [L|[E|G]]; auto.
  - assert (0 < sin (- (d / 2))) by (apply sin_gt_0; lra). rewrite sin_neg in *. lra.
  - assert (0 < sin (d / 2)) by (apply sin_gt_0; lra). lra.
Qed.

Lemma norm_exact : forall t th, - (3 * PI) < t < 3 * PI -> cos t = cos th -> sin t = sin th ->
  settled th -> normalizeAngle t = th.
Proof.
  intros t th R C S [->|A].
  { pose proof PI_RGT_0. pose proof kdl_eps_pos. rewrite cos_PI in C. rewrite sin_PI in S.
    assert (Q : t = PI \/ t = - PI).
    { destruct (Rle_dec 0 t).
      - left. apply angle_eq; [lra|rewrite C; symmetry; apply cos_PI|rewrite S; symmetry; apply sin_PI].
      - right. apply angle_eq; [lra|rewrite C, cos_neg; symmetry; apply cos_PI|rewrite S, sin_neg, sin_PI; ring]. }
    unfold normalizeAngle. rewrite (proj2 (Equal_true (Rabs t) PI)); [reflexivity|].
    assert (A : Rabs t = PI) by (destruct Q as [-> | ->]; rewrite ?Rabs_Ropp; apply Rabs_pos_eq; lra).
    rewrite A, Rminus_diag_eq, Rabs_R0 by reflexivity. lra. }
  destruct (snap t R) as (B & s & _ & SS & SC & D & X).
  pose proof kdl_eps_pos. assert (TH : - PI + kdl_eps <= th <= PI - kdl_eps).
  { unfold Rabs in A. destruct (Rcase_abs th); lra. }
  assert (s = th).
  { apply angle_eq; try congruence. apply Rabs_def2 in D. lra. }
  subst s. destruct (Req_dec (normalizeAngle t) PI) as [E|N]; auto.
  rewrite E in D. apply Rabs_def2 in D. lra.
Qed.

Lemma rot_inj : forall a s t u, unit a -> perp a u <> vzero -> mv (Rot2 a s) u = mv (Rot2 a t) u ->
  cos s = cos t /\ sin s = sin t.
Proof.
  intros a s t u U N E. rewrite (rot_split a s), (rot_split a t) in E by auto.
  assert (E' : mv (Rot2 a s) (perp a u) = mv (Rot2 a t) (perp a u)).
  { revert E. generalize (vscale (dot a u) a), (mv (Rot2 a s) (perp a u)), (mv (Rot2 a t) (perp a u)).
    intros x y z E. unfold vadd in E. injection E; intros. apply vec_eq; lra. }
  assert (P : dot (perp a u) (perp a u) <> 0).
  { intro Z. apply N. apply norm_zero. rewrite <- sqrt_0, <- Z. reflexivity. }
  pose proof (perp_dot a u U) as D. split.
  - apply Rmult_eq_reg_l with (dot (perp a u) (perp a u)); auto. rewrite <- (rot_dot a _ s), <- (rot_dot a _ t) by auto. congruence.
  - apply Rmult_eq_reg_l with (dot (perp a u) (perp a u)); auto. rewrite <- (rot_det a _ s), <- (rot_det a _ t) by auto. congruence.
Qed.

(** the angle computed from a point and its image *)
Lemma raw_exact : forall a u t, unit a -> perp a u <> vzero -> settled t ->
  normalizeAngle (raw_angle a u (mv (Rot2 a t) u)) = t.
Proof.
  intros a u t U N A.
  assert (D1 : dot a u = dot a (mv (Rot2 a t) u)) by (rewrite rot_axis_dot; auto).
  assert (D2 : dot u u = dot (mv (Rot2 a t) u) (mv (Rot2 a t) u)) by (rewrite dot_rot; auto; apply Rot2_rot; auto).
  pose proof (raw_angle_rot a u _ U D1 D2) as R.
  destruct (rot_inj a _ t u U N R). apply norm_exact; auto. apply raw_range.
Qed.

Lemma pk1_found : forall id a o p rhs pt t, unit a ->
  move1 (E ROTATION a o) t (fapp pt p) = fapp rhs p ->
  perp a (vsub (fapp pt p) o) <> vzero -> settled t ->
  pk1_solve id (E ROTATION a o) p rhs pt = Some (true, [[(id, t)]]).
Proof.
  intros id a o p rhs pt t U H N A. destruct (pk1_complete id a o p rhs pt t U H) as (th & E & _). rewrite E.
  rewrite pk1_unfold in E. cbv zeta in E. rewrite <- H, move_rot_sub, raw_exact in E by auto.
  injection E; intros; subst; reflexivity.
Qed.

Lemma pk2_found : forall a1 a2, unit a1 -> unit a2 -> 1 - dot a1 a2 * dot a1 a2 <> 0 ->
  forall id1 id2 s1 s2 p r rhs pt t1 t2,
  let e1 := E ROTATION a1 (vadd r (vscale s1 a1)) in
  let e2 := E ROTATION a2 (vadd r (vscale s2 a2)) in
  let f := fapp pt p in
  let c := move1 e2 t2 f in
  move2 e1 e2 t1 t2 f = fapp rhs p ->
  let g := dot (vsub c r) (cross a1 a2) / (1 - dot a1 a2 * dot a1 a2) in
  (g = 0 \/ kdl_eps <= g * g) ->
  perp a2 (vsub f r) <> vzero -> perp a1 (vsub c r) <> vzero ->
  settled t1 -> settled t2 ->
  exists l1 l2, pk2_solve id1 id2 e1 e2 p r rhs pt = Some (true, [l1; l2]) /\
    (l1 = [(id1, t1); (id2, t2)] \/ l2 = [(id1, t1); (id2, t2)]).
Proof.
  intros a1 a2 U1 U2 NW id1 id2 s1 s2 p r rhs pt t1 t2 e1 e2 f c H g G N2 N1 A1 A2.
  destruct (pk2_main a1 a2 U1 U2 NW id1 id2 s1 s2 p r rhs pt t1 t2 H G) as (h11 & h21 & h12 & h22 & SV & _).
  fold e1 e2 in SV. do 2 eexists. split; [exact SV|].
  pose proof (pk2_unfold a1 a2 U1 U2 NW id1 id2 s1 s2 p r rhs pt) as UF. fold e1 e2 in UF. rewrite SV in UF.
  set (W := 1 - dot a1 a2 * dot a1 a2) in *. set (d := dot a1 a2) in *. set (w := cross a1 a2) in *.
  set (u := vsub (fapp pt p) r) in *. set (v := vsub (fapp rhs p) r) in *. set (z := vsub c r) in *.
  set (al := (dot a1 v - d * dot a2 u) / W) in *. set (be := (dot a2 u - d * dot a1 v) / W) in *.
  set (g2 := (dot u u - al * al - be * be - 2 * al * be * d) / W) in *.
  assert (Z2 : z = mv (Rot2 a2 t2) u).
  { unfold z, c, e2. rewrite move_origin by auto. apply move_rot_sub; auto. }
  assert (V1 : v = mv (Rot2 a1 t1) z).
  { unfold v. rewrite <- H. unfold move2. fold c. unfold e1. rewrite move_origin by auto. apply move_rot_sub; auto. }
  assert (D1 : dot a1 v = dot a1 z) by (rewrite V1; apply rot_axis_dot; auto).
  assert (D2 : dot a2 z = dot a2 u) by (rewrite Z2; apply rot_axis_dot; auto).
  assert (Nz : dot z z = dot u u) by (rewrite Z2; apply dot_rot, Rot2_rot; auto).
  assert (Zc : z = comb a1 a2 al be g).
  { rewrite (comb_of a1 a2 U1 U2 NW z) at 1. unfold al, be, g. rewrite D1, D2. reflexivity. }
  assert (G2 : g * g = g2).
  { unfold g2. rewrite <- Nz, Zc, (comb_norm a1 a2 U1 U2). fold d. fold W. field; auto. }
  assert (PR : pk2_pair a1 a2 id1 id2 p r rhs pt z = [(id1, t1); (id2, t2)]).
  { unfold pk2_pair. fold u v.
    replace (normalizeAngle (raw_angle a1 z v)) with t1 by (rewrite V1, raw_exact; auto).
    replace (normalizeAngle (raw_angle a2 u z)) with t2 by (rewrite Z2, raw_exact; auto). reflexivity. }
  pose proof kdl_eps_pos. destruct G as [G | G].
  - assert (Z0 : g2 = 0) by (rewrite <- G2, G; ring). rewrite Z0, Equal_refl in UF. cbn [negb andb] in UF.
    rewrite Zc, G in PR. rewrite PR in UF. left. clear - UF. congruence.
  - rewrite G2 in G. assert (NE : Equal g2 0 = false).
    { apply Equal_false. rewrite Rminus_0_r, Rabs_pos_eq; lra. }
    rewrite NE in UF. rewrite (proj2 (Rltb_true 0 g2)) in UF by lra. cbn [negb andb] in UF.
    assert (CS : g = sqrt g2 \/ g = - sqrt g2).
    { rewrite <- G2. destruct (Rle_dec 0 g).
      - left. rewrite sqrt_square; auto.
      - right. replace (g * g) with ((- g) * (- g)) by ring. rewrite sqrt_square; lra. }
    rewrite Zc in PR. destruct CS as [CS|CS]; rewrite CS in PR; rewrite PR in UF; [right|left]; clear - UF; congruence.
Qed.

Lemma cos_eq_cases : forall x y, cos x = cos y -> sin x = sin y \/ sin x = - sin y.
Proof.
  intros x y H. pose proof (sin2_cos2 x). pose proof (sin2_cos2 y). unfold Rsqr in *.
  assert (Q : (sin x - sin y) * (sin x + sin y) = 0) by nra.
  apply Rmult_integral in Q as [Q|Q]; [left|right]; lra.
Qed.

Lemma pk3_found : forall id a o p k rhs pt t, unit a ->
  let nu := norm (perp a (vsub (fapp pt p) o)) in
  let nv := norm (perp a (vsub k o)) in
  nu <> 0 -> nv <> 0 ->
  dist (move1 (E ROTATION a o) t (fapp pt p)) k = dist (fapp rhs p) k ->
  Rabs (cos (t - raw_angle a (vsub (fapp pt p) o) (vsub k o))) <= 1 - kdl_eps -> settled t ->
  exists t1 t2, pk3_solve id (E ROTATION a o) p k rhs pt = Some (true, [[(id, t1)]; [(id, t2)]]) /\ (t1 = t \/ t2 = t).
Proof.
  intros id a o p k rhs pt t U nu nv NU NV H C A.
  rewrite (pk3_unfold id a o p k rhs pt NU NV).
  apply (pk3_dist_iff a o p k rhs pt U NU NV) in H. rewrite H in C.
  set (al := raw_angle _ _ _) in *. set (bc := _ / _) in *.
  pose proof kdl_eps_pos as EP. pose proof PI_RGT_0 as PP.
  assert (B : -1 <= bc <= 1) by (unfold Rabs in C; destruct (Rcase_abs bc); lra).
  rewrite (proj2 (Equal_false (Rabs bc) 1)).
  2:{ rewrite Rabs_left by lra. lra. }
  rewrite (proj2 (Rltb_true _ _)) by lra. cbn [negb andb].
  pose proof (acos_bound bc) as AR. assert (LR : - PI < al <= PI) by (unfold al, raw_angle; apply atan2_bound).
  rewrite <- (cos_acos bc) in H by auto. do 2 eexists. split; [reflexivity|].
  destruct (cos_eq_cases _ _ H) as [S|S]; [left|right]; apply norm_exact; auto; try lra.
  - replace t with (al + (t - al)) by ring. rewrite !cos_plus, H, S. reflexivity.
  - replace t with (al + (t - al)) by ring. rewrite !sin_plus, H, S. reflexivity.
  - replace t with (al + (t - al)) by ring. rewrite cos_plus, cos_minus, H, S. ring.
  - replace t with (al + (t - al)) by ring. rewrite sin_plus, sin_minus, H, S. ring.
Qed.

Lemma ex_pk1_off : perp (V 0 0 1) (vsub (fapp fid (V 2 0 7)) (V 1 0 0)) <> vzero.
Proof. rewrite fapp_id. intro Q. apply (f_equal vx) in Q. cbn in Q. lra. Qed.
Lemma ex_pk1_settled : settled (PI / 2).
Proof. right. pose proof PI_RGT_0. pose proof PI2_1. rewrite Rabs_pos_eq by lra. unfold kdl_eps. lra. Qed.
