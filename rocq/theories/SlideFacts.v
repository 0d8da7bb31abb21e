(** Proofs about the poses reached by arms with a sliding joint: two parallel rotations. *)
From Coq Require Import Reals Lra List Bool Lia Arith.
From Verif Require Import Kdl KdlFacts Screw ScrewFacts Trig TrigFacts Subproblems SubproblemSpec2 SubproblemFacts SubproblemFacts2 SubproblemFacts3 SubproblemFacts4 SubproblemFacts5 SubproblemFacts6
  IkProblem IkSpec IkProblemFacts IkProblemFacts2 IkProblemFacts3 Builder BuilderSpec IkPoseSpec IkPoseFacts IkPoseFacts2 IkPoseFacts3 SlideSpec.
Import ListNotations.
Open Scope R_scope.
Local Notation S := Datatypes.S.

Lemma parallel_sign : forall e e', parallel e e' -> exists s, s * s = 1 /\ e_axis e' = vscale s (e_axis e).
Proof.
  intros e e' [H|H]; [exists 1|exists (-1)]; (split; [ring|]); rewrite H; destruct (e_axis e); vlin.
Qed.
Lemma away_parallel : forall e e' x, parallel e e' -> away e' x = norm (perp (e_axis e) (vsub x (e_origin e'))).
Proof.
  intros e e' x H. destruct (parallel_sign e e' H) as (s & SS & A). unfold away. f_equal. apply (perp_a2 _ _ s); assumption.
Qed.

(** two parallel rotations find the very angles used *)
Lemma pg4_found : forall id1 id2 a1 o1 a2 o2 p s rhs pt, unit a1 -> s * s = 1 -> a2 = vscale s a1 ->
  let f := fapp pt p in let k := fapp rhs p in let e1 := E ROTATION a1 o1 in let e2 := E ROTATION a2 o2 in
  kdl_eps <= norm (perp a1 (vsub o2 o1)) -> forall t1 t2, move2 e1 e2 t1 t2 f = k ->
  kdl_eps <= norm (perp a1 (vsub f o2)) + norm (perp a1 (vsub k o1)) - norm (perp a1 (vsub o2 o1)) ->
  perp a1 (vsub f o2) <> vzero -> perp a1 (vsub (move1 e2 t2 f) o1) <> vzero -> settled t1 -> settled t2 ->
  exists l1 l2, pg4_solve id1 id2 e1 e2 p rhs pt = Some (true, [l1; l2]) /\
    (l1 = [(id1, t1); (id2, t2)] \/ l2 = [(id1, t1); (id2, t2)]).
Proof.
  intros id1 id2 a1 o1 a2 o2 p s rhs pt U1 SS A2 f k e1 e2 CN t1 t2 H G N2 N1 S1 S2. pose proof kdl_eps_pos as EP.
  assert (U2 : unit a2) by (apply (U2 a1 a2 s); auto).
  destruct (pg4_main id1 id2 a1 o1 a2 o2 p s rhs pt U1 SS A2 CN t1 t2 H G) as (h11 & h21 & h12 & h22 & SV & _).
  fold e1 e2 in SV. do 2 eexists. split; [exact SV|].
  set (c := move1 e2 t2 f) in *.
  set (u := vsub f o2) in *. set (v := vsub k o1) in *. set (D := perp a1 (vsub o2 o1)) in *.
  assert (C2 : vsub c o2 = mv (Rot2 a2 t2) u) by (apply move_rot_sub, U2).
  assert (K1 : v = mv (Rot2 a1 t1) (vsub c o1)).
  { unfold v. rewrite <- H. unfold move2. fold c. apply move_rot_sub; auto. }
  assert (AU : dot a1 (vsub c o2) = dot a1 u).
  { apply (dot_a2 a1 a2 s); auto. rewrite C2. apply rot_axis_dot, U2. }
  assert (AV : dot a1 v = dot a1 (vsub c o1)) by (rewrite K1; apply rot_axis_dot; auto).
  assert (NU : dot (vsub c o2) (vsub c o2) = dot u u) by (rewrite C2; apply dot_rot, Rot2_rot, U2).
  assert (NV : dot v v = dot (vsub c o1) (vsub c o1)) by (rewrite K1; apply dot_rot, Rot2_rot; auto).
  pose proof (pg4_unfold id1 id2 a1 o1 a2 o2 p s rhs pt U1 SS A2 CN) as UF. fold f k e1 e2 u v D in UF.
  assert (PL : dot a1 u - dot a1 v = dot a1 (vsub o1 o2)) by (rewrite <- AU, AV, <- dot_sub_r; f_equal; vlin).
  specialize (UF PL). rewrite SV in UF. clear SV PL.
  set (cn := norm D) in *. set (nu := norm (perp a1 u)) in *. set (nv := norm (perp a1 v)) in *.
  rewrite (proj2 (Equal_false _ 0)) in UF by (rewrite Rminus_0_r, Rabs_pos_eq; lra).
  rewrite (proj2 (Rltb_true 0 _)) in UF by lra. cbn [negb andb] in UF.
  set (oa := vscale (1 / cn) D) in *. set (oh := cross a1 oa) in *. set (aa := (cn * cn - nu * nu + nv * nv) / (2 * cn)) in *.
  set (h := sqrt (Rabs (nv * nv - aa * aa))) in *. set (c1 := vsub (vadd o1 v) (perp a1 v)) in *.
  set (w := perp a1 (vsub c o1)) in *.
  assert (WV : dot w w = nv * nv) by (unfold nv, w; rewrite norm_sqr, !perp_norm2, AV, NV by auto; reflexivity).
  assert (WD : dot (vsub w D) (vsub w D) = nu * nu).
  { unfold w, D. rewrite <- perp_sub. replace (vsub (vsub c o1) (vsub o2 o1)) with (vsub c o2) by vlin.
    unfold nu. rewrite norm_sqr, !perp_norm2, AU, NU by auto. reflexivity. }
  assert (DD : dot D D = cn * cn) by (unfold cn; rewrite norm_sqr; reflexivity).
  assert (aD : dot a1 D = 0) by (apply perp_dot; auto).
  assert (aw : dot a1 w = 0) by (apply perp_dot; auto).
  assert (OA : dot oa oa = 1) by (unfold oa; rewrite dot_scale_l, dot_scale_r, DD; field; lra).
  assert (aoa : dot a1 oa = 0) by (unfold oa; rewrite dot_scale_r, aD; ring).
  assert (AA : aa = dot w oa).
  { unfold aa, oa. rewrite dot_scale_r, <- DD, <- WD, <- WV. rewrite !dot_sub_l, !dot_sub_r, (dot_comm D w). field. lra. }
  assert (OHOA : dot oh oa = 0) by (unfold oh; rewrite dot_comm, dot_cross_r; reflexivity).
  assert (OH : dot oh oh = 1) by (unfold oh; rewrite lagrange, U1, OA, aoa; ring).
  assert (WDEC : w = vadd (vscale aa oa) (vscale (dot w oh) oh)).
  { pose proof (plane_decomp a1 oa w U1 aoa aw) as PD. rewrite OA, vscale_1 in PD. fold oh in PD.
    rewrite PD at 1. f_equal. { rewrite AA, (dot_comm oa w). reflexivity. }
    f_equal. unfold oh. vring. }
  assert (HH : nv * nv - aa * aa = dot w oh * dot w oh).
  { rewrite <- WV. set (g := dot w oh) in WDEC |- *. rewrite WDEC. rewrite dot_add_l, !dot_add_r, !dot_scale_l, !dot_scale_r, OA, OH, OHOA, (dot_comm oa oh), OHOA. ring. }
  assert (H2 : h * h = nv * nv - aa * aa).
  { unfold h. rewrite sqrt_sqrt by apply Rabs_pos. rewrite HH. apply Rabs_pos_eq. apply Rle_0_sqr. }
  assert (CC : c = vadd (vadd c1 (vscale aa oa)) (vscale (dot w oh) oh)).
  { replace c with (vadd o1 (vadd (vscale (dot a1 v) a1) w)).
    - rewrite WDEC at 1. unfold c1, perp. vlin.
    - unfold w. rewrite AV, <- perp_split. vlin. }
  assert (PR : pg4_pair id1 id2 a1 o1 a2 o2 p rhs pt c = [(id1, t1); (id2, t2)]).
  { unfold pg4_pair. fold f k u v. rewrite C2.
    replace (normalizeAngle (raw_angle a1 (vsub c o1) v)) with t1 by (rewrite K1, raw_exact; auto).
    rewrite raw_exact; auto. rewrite (perp_a2 a1 a2 s); auto. }
  assert (CS : dot w oh = h \/ dot w oh = - h).
  { rewrite HH in H2. assert (Z : (h - dot w oh) * (h + dot w oh) = 0) by lra.
    apply Rmult_integral in Z as [Z|Z]; [left | right]; lra. }
  destruct CS as [CS|CS]; rewrite CS in CC.
  - rewrite <- CC, PR in UF. left. clear - UF. congruence.
  - replace (vsub (vadd c1 (vscale aa oa)) (vscale h oh)) with c in UF by (rewrite CC; vlin). rewrite PR in UF. right. clear - UF. congruence.
Qed.

(** they never run into a division by zero *)
Lemma pg4_defined : forall id1 id2 e1 e2 p rhs pt, unit (e_axis e1) -> e_motion e1 = ROTATION -> kdl_eps <= away e1 (e_origin e2) ->
  pg4_solve id1 id2 e1 e2 p rhs pt <> None.
Proof.
  intros id1 id2 [m1 a1 o1] e2 p rhs pt U M CN. cbn [e_axis e_motion] in U, M. subst m1. unfold away in CN. cbn [e_axis e_origin] in CN. pose proof kdl_eps_pos as EP.
  unfold pg4_solve. rewrite (computeNormal_eq a1 o1 e2 U) by exact CN. cbn [e_axis e_origin]. rewrite !perp_eq.
  set (u := vsub (fapp pt p) (e_origin e2)). set (v := vsub (fapp rhs p) o1). set (D := perp a1 (vsub (e_origin e2) o1)) in *.
  set (x := vsub (vsub (vadd (e_origin e2) u) (perp a1 u)) (vsub (vadd o1 v) (perp a1 v))).
  assert (NX : norm (if EqualV x D then x else D) <> 0).
  { assert (ND : norm D <> 0) by lra. destruct (EqualV x D); [|exact ND]. intro Z. apply ND. apply norm_zero in Z.
    assert (P : perp a1 x = D).
    { unfold x, D. replace (vsub (vsub (vadd (e_origin e2) u) (perp a1 u)) (vsub (vadd o1 v) (perp a1 v)))
        with (vadd (vsub (e_origin e2) o1) (vscale (dot a1 u - dot a1 v) a1)) by (unfold perp; vlin).
      rewrite perp_add, perp_axis by exact U. vlin. }
    rewrite <- P, Z. unfold norm. replace (dot (perp a1 vzero) (perp a1 vzero)) with 0 by (unfold perp; vunf; cbn; ring). apply sqrt_0. }
  match goal with |- (if ?c then _ else _) <> None => destruct c end; [|discriminate].
  unfold fdiv. rewrite (proj2 (Reqb_false _ 0)) by exact NX. rewrite (proj2 (Reqb_false _ 0)) by lra. cbn [obind]. discriminate.
Qed.

(** ** Paths *)
Ltac fu F n := match type of F with first_unknown ?p ?K ?a => assert (a = n) by (eapply first_unknown_eq; [exact F|repeat split; cbn; lia]); subst a; clear F end.
Ltac nope H := destruct H as [[?X _]|[_ ->]]; [exfalso; cbn in X; lia|].
Ltac bare P := let K := fresh "K" in destruct P as [[-> _]|(?lo & ?hi & ?B1 & ?B2 & _ & K & _)]; [|match type of B1 with (_ <= ?l < _)%nat => specialize (K l ltac:(lia)); cbn in K; lia end].

Section Sliding.
Variables (e0 e1 e2 e3 e4 e5 : mexp) (T : frame) (r w x y : vec) (reversed : bool) (target : frame).
Let p := P [e0; e1; e2; e3; e4; e5] T.
Let G := goal p reversed target.
Let Z : list R := repeat 0 6.

Lemma sliding_path : forall k0 k1 k2 k3 q ok,
  derived p reversed target own_marks (problem_steps (sliding_steps (exps p) r w x y)) [k0; k1; k2; k3] q ok ->
  exists f0 l0 loc0 f1 l1 loc1 f2 l2 loc2 f3 l3 loc3,
    let q1 := assign p reversed loc0 Z in
    let q2 := assign p reversed loc1 q1 in
    let q3 := assign p reversed loc2 q2 in
    pg3_solve 2 e2 w r G fid = Some (f0, l0) /\ nth_error l0 k0 = Some loc0 /\
    pk2_solve 0 1 e0 e1 w r G (displ p reversed q1 2) = Some (f1, l1) /\ nth_error l1 k1 = Some loc1 /\
    pk2_solve 3 4 e3 e4 x w (fmul (finv (product p reversed q2 0 3)) G) fid = Some (f2, l2) /\ nth_error l2 k2 = Some loc2 /\
    pk1_solve 5 e5 y (fmul (finv (product p reversed q3 0 5)) G) fid = Some (f3, l3) /\ nth_error l3 k3 = Some loc3 /\
    q = assign p reversed loc3 q3 /\ ok = f0 && f1 && f2 && f3.
Proof.
  intros k0 k1 k2 k3 q ok D.
  apply (derived_last p reversed target own_marks (problem_steps [SPG3 2 e2 w r; SPK2 0 1 e0 e1 w r; SPK2 3 4 e3 e4 x w]) (pk1_step 5 e5 y) [5%nat] [k0; k1; k2] k3) in D.
  destruct D as (q3 & ok3 & a3 & b3 & rhs3 & h3 & f3 & l3 & loc3 & D & F3 & R3 & H3 & P3 & S3 & N3 & -> & ->).
  apply (derived_last p reversed target own_marks (problem_steps [SPG3 2 e2 w r; SPK2 0 1 e0 e1 w r]) (pk2_step 3 4 e3 e4 x w) [3%nat; 4%nat] [k0; k1] k2) in D.
  destruct D as (q2 & ok2 & a2 & b2 & rhs2 & h2 & f2 & l2 & loc2 & D & F2 & R2 & H2 & P2 & S2 & N2 & -> & ->).
  apply (derived_last p reversed target own_marks (problem_steps [SPG3 2 e2 w r]) (pk2_step 0 1 e0 e1 w r) [0%nat; 1%nat] [k0] k1) in D.
  destruct D as (q1 & ok1 & a1 & b1 & rhs1 & h1 & f1 & l1 & loc1 & D & F1 & R1 & H1 & P1 & S1 & N1 & -> & ->).
  apply (derived_last p reversed target own_marks (problem_steps []) (pg3_step 2 e2 w r) [2%nat] [] k0) in D.
  destruct D as (q0 & ok0 & a0 & b0 & rhs0 & h0 & f0 & l0 & loc0 & D & F0 & R0 & H0 & P0 & S0 & N0 & -> & ->).
  apply derived_nil in D. destruct D as [-> ->]. change (repeat 0 (length (exps p))) with Z in *.
  cbn [concat map snd problem_steps sub_ids app] in *. unfold own_marks in *.
  exists f0, l0, loc0, f1, l1, loc1, f2, l2, loc2, f3, l3, loc3. cbv zeta.
  fu F0 0%nat. fu F1 0%nat. fu F2 3%nat. fu F3 5%nat.
  unfold right_end in *. unfold rhs_of in *. fold G in H0, H1, H2, H3. change (length (exps p)) with 6%nat in *. change (6 - 1)%nat with 5%nat in *.
  nope R0. nope R1. nope R2. nope R3. nope H0. nope H1. nope H2. nope H3.
  bare P0. bare P2. bare P3.
  destruct P1 as [[_ N]|(lo & hi & B1 & B2 & U & K & _ & ->)]; [exfalso; apply (N 2%nat); cbn; lia|].
  assert (lo = 2%nat) by (specialize (K lo ltac:(lia)); cbn in K; lia). subst lo.
  assert (hi = 3%nat). { destruct (Nat.eq_dec hi 3); [assumption|]. specialize (K 3%nat ltac:(lia)). cbn in K. lia. } subst hi.
  change (product p reversed (assign p reversed loc0 Z) 2 (3 - 2)) with (fmul (displ p reversed (assign p reversed loc0 Z) 2) fid) in S1. rewrite fmul_id_r in S1.
  change (product p reversed Z 0 0) with fid in S0. rewrite finv_id, fmul_id_l in S0.
  change (product p reversed (assign p reversed loc0 Z) 0 0) with fid in S1. rewrite finv_id, fmul_id_l in S1.
  cbn [st_solve pg3_step pk2_step pk1_step] in *. repeat (split; [assumption|]). split; reflexivity.
Qed.
End Sliding.

Section Linear.
Variables (e0 e1 e2 e3 e4 e5 : mexp) (T : frame) (w x y : vec) (reversed : bool) (target : frame).
Let p := P [e0; e1; e2; e3; e4; e5] T.
Let G := goal p reversed target.
Let Z : list R := repeat 0 6.

Lemma linear_path : forall k0 k1 k2 k3 q ok,
  derived p reversed target own_marks (problem_steps (linear_steps (exps p) w x y)) [k0; k1; k2; k3] q ok ->
  exists f0 l0 loc0 f1 l1 loc1 f2 l2 loc2 f3 l3 loc3,
    let q1 := assign p reversed loc0 Z in
    let q2 := assign p reversed loc1 q1 in
    let q3 := assign p reversed loc2 q2 in
    pg1_solve 0 e0 w G fid = Some (f0, l0) /\ nth_error l0 k0 = Some loc0 /\
    pg4_solve 1 2 e1 e2 w (fmul (finv (product p reversed q1 0 1)) G) fid = Some (f1, l1) /\ nth_error l1 k1 = Some loc1 /\
    pk2_solve 3 4 e3 e4 x w (fmul (finv (product p reversed q2 0 3)) G) fid = Some (f2, l2) /\ nth_error l2 k2 = Some loc2 /\
    pk1_solve 5 e5 y (fmul (finv (product p reversed q3 0 5)) G) fid = Some (f3, l3) /\ nth_error l3 k3 = Some loc3 /\
    q = assign p reversed loc3 q3 /\ ok = f0 && f1 && f2 && f3.
Proof.
  intros k0 k1 k2 k3 q ok D.
  apply (derived_last p reversed target own_marks (problem_steps [SPG1 0 e0 w; SPG4 1 2 e1 e2 w; SPK2 3 4 e3 e4 x w]) (pk1_step 5 e5 y) [5%nat] [k0; k1; k2] k3) in D.
  destruct D as (q3 & ok3 & a3 & b3 & rhs3 & h3 & f3 & l3 & loc3 & D & F3 & R3 & H3 & P3 & S3 & N3 & -> & ->).
  apply (derived_last p reversed target own_marks (problem_steps [SPG1 0 e0 w; SPG4 1 2 e1 e2 w]) (pk2_step 3 4 e3 e4 x w) [3%nat; 4%nat] [k0; k1] k2) in D.
  destruct D as (q2 & ok2 & a2 & b2 & rhs2 & h2 & f2 & l2 & loc2 & D & F2 & R2 & H2 & P2 & S2 & N2 & -> & ->).
  apply (derived_last p reversed target own_marks (problem_steps [SPG1 0 e0 w]) (pg4_step 1 2 e1 e2 w) [1%nat; 2%nat] [k0] k1) in D.
  destruct D as (q1 & ok1 & a1 & b1 & rhs1 & h1 & f1 & l1 & loc1 & D & F1 & R1 & H1 & P1 & S1 & N1 & -> & ->).
  apply (derived_last p reversed target own_marks (problem_steps []) (pg1_step 0 e0 w) [0%nat] [] k0) in D.
  destruct D as (q0 & ok0 & a0 & b0 & rhs0 & h0 & f0 & l0 & loc0 & D & F0 & R0 & H0 & P0 & S0 & N0 & -> & ->).
  apply derived_nil in D. destruct D as [-> ->]. change (repeat 0 (length (exps p))) with Z in *.
  cbn [concat map snd problem_steps sub_ids app] in *. unfold own_marks in *.
  exists f0, l0, loc0, f1, l1, loc1, f2, l2, loc2, f3, l3, loc3. cbv zeta.
  fu F0 0%nat. fu F1 1%nat. fu F2 3%nat. fu F3 5%nat.
  unfold right_end in *. unfold rhs_of in *. fold G in H0, H1, H2, H3. change (length (exps p)) with 6%nat in *. change (6 - 1)%nat with 5%nat in *.
  nope R0. nope R1. nope R2. nope R3. nope H0. nope H1. nope H2. nope H3.
  bare P0. bare P1. bare P2. bare P3.
  change (product p reversed Z 0 0) with fid in S0. rewrite finv_id, fmul_id_l in S0.
  cbn [st_solve pg1_step pg4_step pk2_step pk1_step] in *. repeat (split; [assumption|]). split; reflexivity.
Qed.
End Linear.

Section Scara.
Variables (e0 e1 e2 e3 : mexp) (T : frame) (w y : vec) (reversed : bool) (target : frame).
Let p := P [e0; e1; e2; e3] T.
Let G := goal p reversed target.
Let Z : list R := repeat 0 4.

Lemma scara_path : forall k0 k1 k2 q ok,
  derived p reversed target own_marks (problem_steps (scara_steps (exps p) w y)) [k0; k1; k2] q ok ->
  exists f0 l0 loc0 f1 l1 loc1 f2 l2 loc2,
    let q1 := assign p reversed loc0 Z in
    let q2 := assign p reversed loc1 q1 in
    pg1_solve 2 e2 w G fid = Some (f0, l0) /\ nth_error l0 k0 = Some loc0 /\
    pg4_solve 0 1 e0 e1 w G (displ p reversed q1 2) = Some (f1, l1) /\ nth_error l1 k1 = Some loc1 /\
    pk1_solve 3 e3 y (fmul (finv (product p reversed q2 0 3)) G) fid = Some (f2, l2) /\ nth_error l2 k2 = Some loc2 /\
    q = assign p reversed loc2 q2 /\ ok = f0 && f1 && f2.
Proof.
  intros k0 k1 k2 q ok D.
  apply (derived_last p reversed target own_marks (problem_steps [SPG1 2 e2 w; SPG4 0 1 e0 e1 w]) (pk1_step 3 e3 y) [3%nat] [k0; k1] k2) in D.
  destruct D as (q2 & ok2 & a2 & b2 & rhs2 & h2 & f2 & l2 & loc2 & D & F2 & R2 & H2 & P2 & S2 & N2 & -> & ->).
  apply (derived_last p reversed target own_marks (problem_steps [SPG1 2 e2 w]) (pg4_step 0 1 e0 e1 w) [0%nat; 1%nat] [k0] k1) in D.
  destruct D as (q1 & ok1 & a1 & b1 & rhs1 & h1 & f1 & l1 & loc1 & D & F1 & R1 & H1 & P1 & S1 & N1 & -> & ->).
  apply (derived_last p reversed target own_marks (problem_steps []) (pg1_step 2 e2 w) [2%nat] [] k0) in D.
  destruct D as (q0 & ok0 & a0 & b0 & rhs0 & h0 & f0 & l0 & loc0 & D & F0 & R0 & H0 & P0 & S0 & N0 & -> & ->).
  apply derived_nil in D. destruct D as [-> ->]. change (repeat 0 (length (exps p))) with Z in *.
  cbn [concat map snd problem_steps sub_ids app] in *. unfold own_marks in *.
  exists f0, l0, loc0, f1, l1, loc1, f2, l2, loc2. cbv zeta.
  fu F0 0%nat. fu F1 0%nat. fu F2 3%nat.
  unfold right_end in *. unfold rhs_of in *. fold G in H0, H1, H2. change (length (exps p)) with 4%nat in *. change (4 - 1)%nat with 3%nat in *.
  nope R0. nope R1. nope R2. nope H0. nope H1. nope H2.
  bare P0. bare P2.
  destruct P1 as [[_ N]|(lo & hi & B1 & B2 & U & K & _ & ->)]; [exfalso; apply (N 2%nat); cbn; lia|].
  assert (lo = 2%nat) by (specialize (K lo ltac:(lia)); cbn in K; lia). subst lo.
  assert (hi = 3%nat). { destruct (Nat.eq_dec hi 3); [assumption|]. specialize (K 3%nat ltac:(lia)). cbn in K. lia. } subst hi.
  change (product p reversed (assign p reversed loc0 Z) 2 (3 - 2)) with (fmul (displ p reversed (assign p reversed loc0 Z) 2) fid) in S1. rewrite fmul_id_r in S1.
  change (product p reversed Z 0 0) with fid in S0. rewrite finv_id, fmul_id_l in S0.
  change (product p reversed (assign p reversed loc0 Z) 0 0) with fid in S1. rewrite finv_id, fmul_id_l in S1.
  cbn [st_solve pg1_step pg4_step pk1_step] in *. repeat (split; [assumption|]). split; reflexivity.
Qed.
End Scara.
