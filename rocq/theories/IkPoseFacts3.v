(** Proofs that the closed-form inverse kinematics of arms with a spherical wrist finds the joint values that
    were used. *)
From Coq Require Import Reals Lra List Bool Lia Arith.
From Verif Require Import Kdl KdlFacts Screw ScrewFacts Trig TrigFacts Subproblems SubproblemSpec2 SubproblemFacts SubproblemFacts2 SubproblemFacts3 SubproblemFacts4 SubproblemFacts5 SubproblemFacts6
  IkProblem IkSpec IkProblemFacts IkProblemFacts2 IkProblemFacts3 Builder BuilderSpec IkPoseSpec IkPoseFacts IkPoseFacts2.
Import ListNotations.
Open Scope R_scope.
Local Notation S := Datatypes.S.

Lemma derived_last : forall p reversed target marks pre s ids ks0 k q ok,
  derived p reversed target marks (pre ++ [(s, ids)]) (ks0 ++ [k]) q ok ->
  exists q0 ok0 a b rhs h flag locs loc,
    derived p reversed target marks pre ks0 q0 ok0 /\ first_unknown p (concat (map snd pre)) a /\ right_end p (concat (map snd pre)) b /\
    rhs_of p reversed target (concat (map snd pre)) q0 a rhs /\ point_of p reversed (marks ks0 (concat (map snd pre)) ids) q0 a b h /\
    st_solve s rhs h = Some (flag, locs) /\ nth_error locs k = Some loc /\ q = assign p reversed loc q0 /\ ok = ok0 && flag.
Proof.
  intros p reversed target marks pre s ids ks0 k q ok D.
  inversion D as [E1|ss0 ks1 q0 ok0 s0 ids0 a b rhs h flag locs k1 loc D0 FU RE RH PO SV NT E1 E2 E3 E4]; [now destruct pre|].
  apply app_inj_tail in E1. destruct E1 as [-> E1]. injection E1 as -> ->. apply app_inj_tail in E2. destruct E2 as [-> ->]. subst.
  exists q0, ok0, a, b, rhs, h, flag, locs, loc. repeat (split; [assumption|]). auto.
Qed.
Lemma derived_nil : forall p reversed target marks q ok, derived p reversed target marks [] [] q ok -> q = repeat 0 (length (exps p)) /\ ok = true.
Proof.
  intros p reversed target marks q ok D.
  inversion D as [E1|ss0 ks1 q0 ok0 s0 ids0 a b rhs h flag locs k1 loc D0 FU RE RH PO SV NT E1 E2 E3 E4]; [auto|]. destruct ss0; discriminate.
Qed.

(** the first step gets the bare target and the point at rest *)
Lemma first_body : forall p reversed target s s', (0 < length (exps p))%nat -> (forall rhs, st_solve s rhs fid = st_solve s' rhs fid) ->
  step_body (exps p) reversed true s (ik_init p reversed target) = step_body (exps p) reversed true s' (ik_init p reversed target).
Proof.
  intros p reversed target s s' L H. unfold step_body, ik_init. cbn [k_rhs k_terms k_sols k_reach length seq branch_loop].
  assert (T : transformPoint (exps p) reversed (repeat 0 (length (exps p))) (repeat UNKNOWN (length (exps p))) = Some fid).
  { unfold transformPoint. rewrite repeat_length. generalize (repeat 0 (length (exps p))). intro q0.
    assert (G : forall t b, (t <= length (exps p))%nat -> transform_loop (exps p) reversed t q0 (repeat UNKNOWN (length (exps p))) fid false b = Some fid).
    { induction t as [|t IH]; intros b Ht; cbn [transform_loop]; [reflexivity|]. rewrite nth_error_repeat by lia. apply IH. lia. }
    apply G. lia. }
  unfold branch_body. cbn [k_sols k_rhs k_terms nth_error]. rewrite T, H. reflexivity.
Qed.
Lemma solve_total_first : forall p reversed target s ids ss, poe_ok p -> steps_ok (length (exps p)) ((s, ids) :: ss) ->
  (forall rhs, st_solve s rhs fid <> None) -> (forall s' ids' rhs h, In (s', ids') ss -> st_solve s' rhs h <> None) ->
  exists flag cands, ik_solve p (map fst ((s, ids) :: ss)) reversed target = Some (flag, cands).
Proof.
  intros p reversed target s ids ss POK OK F SV. destruct OK as (SOK & ND & BD).
  assert (SO : step_ok s ids) by (apply SOK; now left).
  assert (BI : forall i, In i ids -> (i < length (exps p))%nat) by (intros i Hi; apply BD; cbn; apply in_or_app; auto).
  assert (LP : (0 < length (exps p))%nat).
  { destruct SO as (_ & NE & _). destruct ids as [|i ids]; [congruence|]. specialize (BI i (or_introl eq_refl)). lia. }
  set (s' := Step (fun rhs h => match st_solve s rhs h with Some z => Some z | None => Some (true, repeat (map (fun i => (i, 0)) ids) (st_count s)) end) (st_count s)).
  assert (SO' : step_ok s' ids).
  { destruct SO as (C1 & NE & CT). split; [exact C1|]. split; [exact NE|]. intros rhs h flag locs E. cbn [st_solve s' st_count] in *.
    destruct (st_solve s rhs h) as [[f l]|] eqn:Q.
    - assert ((f, l) = (flag, locs)) as Z by congruence. rewrite Z in Q. exact (CT _ _ _ _ Q).
    - assert (Z : locs = repeat (map (fun i => (i, 0)) ids) (st_count s)) by congruence. subst. split; [apply repeat_length|].
      intros loc I. apply repeat_spec in I. subst. rewrite map_map. cbn. apply map_id. }
  unfold ik_solve. cbn [map fst steps_loop].
  rewrite (first_body p reversed target s s' LP).
  2:{ intro rhs. cbn [st_solve s']. specialize (F rhs). destruct (st_solve s rhs fid); [reflexivity|congruence]. }
  assert (I0 : inv p reversed target [] (ik_init p reversed target)) by (apply inv_start; exact POK).
  destruct (step_body (exps p) reversed true s' (ik_init p reversed target)) as [st|] eqn:SB.
  - assert (I1 : inv p reversed target ([] ++ [(s', ids)]) st).
    { eapply step_inv; try exact SB; try exact I0; auto. intros ? ? []. }
    destruct (steps_loop (exps p) reversed false (map fst ss) st) as [st'|] eqn:SL; [eauto|].
    exfalso. eapply (steps_total p reversed target POK ss [(s', ids)] false st); eauto.
    + intros s1 i1 [E|I]; [injection E as <- <-; exact SO'|]. apply SOK. now right.
    + discriminate.
  - exfalso. eapply (step_total p reversed target POK [] s' ids true); try exact SB; try exact I0; auto; [intros ? ? []|].
    intros rhs h. cbn [st_solve s']. destruct (st_solve s rhs h); discriminate.
Qed.

Section Found.
Variables (e0 e1 e2 e3 e4 e5 : mexp) (T : frame) (r w x y : vec) (reversed : bool) (target : frame).
Let p := P [e0; e1; e2; e3; e4; e5] T.
Let ss := wrist_steps (exps p) r w x y.
Let G := goal p reversed target.
Let Z : list R := repeat 0 6.

(** the four calls along a path *)
Lemma wrist_path : forall k0 k1 k2 k3 q ok,
  derived p reversed target own_marks (problem_steps ss) [k0; k1; k2; k3] q ok ->
  exists f0 l0 loc0 f1 l1 loc1 f2 l2 loc2 f3 l3 loc3,
    let q1 := assign p reversed loc0 Z in
    let q2 := assign p reversed loc1 q1 in
    let q3 := assign p reversed loc2 q2 in
    pk3_solve 2 e2 w r G fid = Some (f0, l0) /\ nth_error l0 k0 = Some loc0 /\
    pk2_solve 0 1 e0 e1 w r G (displ p reversed q1 2) = Some (f1, l1) /\ nth_error l1 k1 = Some loc1 /\
    pk2_solve 3 4 e3 e4 x w (fmul (finv (product p reversed q2 0 3)) G) fid = Some (f2, l2) /\ nth_error l2 k2 = Some loc2 /\
    pk1_solve 5 e5 y (fmul (finv (product p reversed q3 0 5)) G) fid = Some (f3, l3) /\ nth_error l3 k3 = Some loc3 /\
    q = assign p reversed loc3 q3 /\ ok = f0 && f1 && f2 && f3.
Proof.
  intros k0 k1 k2 k3 q ok D.
  assert (FU : forall K a b, first_unknown p K a -> first_unknown p K b -> a = b) by (intros; eapply first_unknown_eq; eauto).
  apply (derived_last p reversed target own_marks (problem_steps [SPK3 2 e2 w r; SPK2 0 1 e0 e1 w r; SPK2 3 4 e3 e4 x w]) (pk1_step 5 e5 y) [5%nat] [k0; k1; k2] k3) in D.
  destruct D as (q3 & ok3 & a3 & b3 & rhs3 & h3 & f3 & l3 & loc3 & D & F3 & R3 & H3 & P3 & S3 & N3 & -> & ->).
  apply (derived_last p reversed target own_marks (problem_steps [SPK3 2 e2 w r; SPK2 0 1 e0 e1 w r]) (pk2_step 3 4 e3 e4 x w) [3%nat; 4%nat] [k0; k1] k2) in D.
  destruct D as (q2 & ok2 & a2 & b2 & rhs2 & h2 & f2 & l2 & loc2 & D & F2 & R2 & H2 & P2 & S2 & N2 & -> & ->).
  apply (derived_last p reversed target own_marks (problem_steps [SPK3 2 e2 w r]) (pk2_step 0 1 e0 e1 w r) [0%nat; 1%nat] [k0] k1) in D.
  destruct D as (q1 & ok1 & a1 & b1 & rhs1 & h1 & f1 & l1 & loc1 & D & F1 & R1 & H1 & P1 & S1 & N1 & -> & ->).
  apply (derived_last p reversed target own_marks (problem_steps []) (pk3_step 2 e2 w r) [2%nat] [] k0) in D.
  destruct D as (q0 & ok0 & a0 & b0 & rhs0 & h0 & f0 & l0 & loc0 & D & F0 & R0 & H0 & P0 & S0 & N0 & -> & ->).
  apply derived_nil in D. destruct D as [-> ->]. change (repeat 0 (length (exps p))) with Z in *.
  cbn [concat map snd problem_steps sub_ids app] in *. unfold own_marks in *.
  exists f0, l0, loc0, f1, l1, loc1, f2, l2, loc2, f3, l3, loc3. cbv zeta.
  assert (A0 : a0 = 0%nat) by (eapply FU; [exact F0|repeat split; cbn; lia]). subst a0.
  assert (A1 : a1 = 0%nat) by (eapply FU; [exact F1|repeat split; cbn; lia]). subst a1.
  assert (A2 : a2 = 3%nat) by (eapply FU; [exact F2|repeat split; cbn; lia]). subst a2.
  assert (A3 : a3 = 5%nat) by (eapply FU; [exact F3|repeat split; cbn; lia]). subst a3. clear F0 F1 F2 F3 FU.
  unfold right_end in *. unfold rhs_of in *. fold G in H0, H1, H2, H3. change (length (exps p)) with 6%nat in *. change (6 - 1)%nat with 5%nat in *.
  destruct R0 as [[X _]|[_ ->]]; [exfalso; cbn in X; lia|]. destruct R1 as [[X _]|[_ ->]]; [exfalso; cbn in X; lia|].
  destruct R2 as [[X _]|[_ ->]]; [exfalso; cbn in X; lia|]. destruct R3 as [[X _]|[_ ->]]; [exfalso; cbn in X; lia|].
  destruct H0 as [[X _]|[_ ->]]; [exfalso; cbn in X; lia|]. destruct H1 as [[X _]|[_ ->]]; [exfalso; cbn in X; lia|].
  destruct H2 as [[X _]|[_ ->]]; [exfalso; cbn in X; lia|]. destruct H3 as [[X _]|[_ ->]]; [exfalso; cbn in X; lia|].
  destruct P0 as [[-> _]|(lo & hi & B1 & B2 & _ & K & _)]; [|destruct (K lo ltac:(lia))].
  destruct P2 as [[-> _]|(lo & hi & B1 & B2 & _ & K & _)]; [|specialize (K lo ltac:(lia)); cbn in K; lia].
  destruct P3 as [[-> _]|(lo & hi & B1 & B2 & _ & K & _)]; [|specialize (K lo ltac:(lia)); cbn in K; lia].
  destruct P1 as [[_ N]|(lo & hi & B1 & B2 & U & K & _ & ->)]; [exfalso; apply (N 2%nat); cbn; lia|].
  assert (lo = 2%nat) by (specialize (K lo ltac:(lia)); cbn in K; lia). subst lo.
  assert (hi = 3%nat). { destruct (Nat.eq_dec hi 3); [assumption|]. specialize (K 3%nat ltac:(lia)). cbn in K. lia. } subst hi.
  change (product p reversed (assign p reversed loc0 Z) 2 (3 - 2)) with (fmul (displ p reversed (assign p reversed loc0 Z) 2) fid) in S1. rewrite fmul_id_r in S1.
  change (product p reversed Z 0 0) with fid in S0. rewrite finv_id, fmul_id_l in S0.
  change (product p reversed (assign p reversed loc0 Z) 0 0) with fid in S1. rewrite finv_id, fmul_id_l in S1.
  cbn [st_solve pk3_step pk2_step pk1_step] in *. repeat (split; [assumption|]). split; reflexivity.
Qed.

Hypothesis POK : poe_ok p.
Hypothesis WA : wrist_arm (exps p) r w x y.

Lemma wrist_axes : forall e, In e (exps p) -> unit (e_axis e) /\ e_motion e = ROTATION.
Proof. destruct POK as [UU _]. cbn in WA. destruct WA as (NT & _). unfold no_translation in NT. rewrite Forall_forall in UU, NT. auto. Qed.

Lemma rotary : forall e, In e (exps p) -> e = E ROTATION (e_axis e) (e_origin e).
Proof. intros [m a o] I. apply wrist_axes in I. cbn in *. destruct I as [_ ->]. reflexivity. Qed.
Lemma through : forall e v, In e (exps p) -> on_axis e v -> exists s, e = E ROTATION (e_axis e) (vadd v (vscale s (e_axis e))).
Proof.
  intros e v I (t & ->). exists (- t). rewrite (rotary e I) at 1. f_equal. unfold point_on. destruct (e_origin e), (e_axis e); vlin.
Qed.
Lemma crossing : forall e e', In e (exps p) -> In e' (exps p) -> cross (e_axis e) (e_axis e') <> vzero ->
  1 - dot (e_axis e) (e_axis e') * dot (e_axis e) (e_axis e') <> 0.
Proof.
  intros e e' I I' C Q. apply C, dot_self_zero. rewrite lagrange. apply wrist_axes in I, I'. unfold unit in *.
  destruct I as [-> _], I' as [-> _]. lra.
Qed.
Lemma pk2_defined : forall id1 id2 e e' v k rhs h, In e (exps p) -> In e' (exps p) -> on_axis e k -> on_axis e' k -> cross (e_axis e) (e_axis e') <> vzero ->
  pk2_solve id1 id2 e e' v k rhs h <> None.
Proof.
  intros id1 id2 e e' v k rhs h I I' O O' C. destruct (through e k I O) as (s & E1), (through e' k I' O') as (s' & E2).
  rewrite E1, E2, pk2_unfold.
  - match goal with |- (if ?c then _ else _) <> None => destruct c end; discriminate.
  - apply wrist_axes, I.
  - apply wrist_axes, I'.
  - apply crossing; assumption.
Qed.

Lemma wrist_safe : exists s ids ss', problem_steps ss = (s, ids) :: ss' /\ steps_ok 6 ((s, ids) :: ss') /\
  (forall rhs, st_solve s rhs fid <> None) /\ (forall s' ids' rhs h, In (s', ids') ss' -> st_solve s' rhs h <> None).
Proof.
  pose proof (wrist_steps_ok e0 e1 e2 e3 e4 e5 T r w x y) as OK. fold p ss in OK.
  cbn in WA. destruct WA as (NT & R0 & R1 & W3 & W4 & W5 & X5 & C01 & C34 & N2w & N2r & N4 & N5).
  do 3 eexists. split; [reflexivity|]. split; [exact OK|]. split.
  - intro rhs. cbn [st_solve sub_step pk3_step]. rewrite (rotary e2) by (cbn; auto).
    assert (U : unit (e_axis e2)) by (apply wrist_axes; cbn; auto).
    rewrite pk3_unfold; rewrite ?fapp_id; try (apply vnorm_nz, off_axis; assumption).
    match goal with |- (if ?c then _ else _) <> None => destruct c end; discriminate.
  - intros s' ids' rhs h [Q|[Q|[Q|[]]]]; injection Q as <- <-; cbn [st_solve sub_step pk2_step pk1_step].
    + apply pk2_defined; cbn; auto 10.
    + apply pk2_defined; cbn; auto 10.
    + unfold pk1_solve. discriminate.
Qed.
Lemma wrist_defined : exists flag cands, ik_solve p (map sub_step ss) reversed target = Some (flag, cands).
Proof.
  assert (E : map sub_step ss = map fst (problem_steps ss)) by (unfold problem_steps; now rewrite map_map). rewrite E.
  destruct wrist_safe as (s & ids & ss' & -> & OK & A & B). apply solve_total_first; assumption.
Qed.

(** *** the joint values that were used are among the candidates *)
Variables (t0 t1 t2 t3 t4 t5 : R) (q : list R).
Hypothesis TH : (if reversed then rev_neg q else q) = [t0; t1; t2; t3; t4; t5].
Hypothesis EV : evaluate p [t0; t1; t2; t3; t4; t5] = Some (if reversed then finv target else target).
Hypothesis RG : regular (exps p) r w x [t0; t1; t2; t3; t4; t5].
Let D0 := asFrame e0 t0. Let D1 := asFrame e1 t1. Let D2 := asFrame e2 t2.
Let D3 := asFrame e3 t3. Let D4 := asFrame e4 t4. Let D5 := asFrame e5 t5.

Lemma D_rigid : forall e t, In e (exps p) -> rigid (asFrame e t).
Proof. intros. apply asFrame_rigid, wrist_axes. assumption. Qed.
Lemma G_eq : G = fmul D0 (fmul D1 (fmul D2 (fmul D3 (fmul D4 D5)))).
Proof.
  rewrite evaluate_some in EV by reflexivity. unfold G, goal.
  assert (Q : (if reversed then finv target else target) = fmul (eval_terms (exps p) [t0; t1; t2; t3; t4; t5] fid) T) by (symmetry; exact (f_equal (fun o => match o with Some z => z | None => fid end) EV)).
  rewrite Q. change (tool p) with T. rewrite fmul_assoc, fmul_inv_r by apply POK. rewrite fmul_id_r.
  change (exps p) with [e0; e1; e2; e3; e4; e5]. rewrite !eval_terms_step. cbn [eval_terms]. rewrite fmul_id_r. reflexivity.
Qed.
Lemma G_w : fapp G w = fapp D0 (fapp D1 (fapp D2 w)).
Proof.
  cbn in WA. destruct WA as (NT & R0 & R1 & W3 & W4 & W5 & _).
  assert (A : forall e t, In e (exps p) -> on_axis e w -> fapp (asFrame e t) w = w).
  { intros e t I O. destruct (wrist_axes e I). now apply axis_fixed. }
  rewrite G_eq, !fapp_fmul. unfold D5, D4, D3. rewrite !A; auto; cbn; auto 10.
Qed.
Lemma q_six : length q = 6%nat.
Proof.
  pose proof (f_equal (@length R) TH) as L. cbn in L. destruct reversed; [|exact L]. unfold rev_neg in L. now rewrite rev_length, map_length in L.
Qed.

Lemma found0 : exists k0, (k0 < 2)%nat /\ exists f l, pk3_solve 2 e2 w r G fid = Some (f, l) /\ nth_error l k0 = Some [(2%nat, t2)].
Proof.
  cbn in WA. destruct WA as (NT & R0 & R1 & W3 & W4 & W5 & X5 & C01 & C34 & N2w & N2r & N4 & N5).
  cbn in RG. destruct RG as (ST & EL & _).
  assert (I0 : In e0 (exps p)) by (cbn; auto). assert (I1 : In e1 (exps p)) by (cbn; auto). assert (I2 : In e2 (exps p)) by (cbn; auto).
  destruct (wrist_axes e2 I2) as [U _].
  pose proof (vnorm_nz _ (off_axis e2 w U N2w)) as NU. pose proof (vnorm_nz _ (off_axis e2 r U N2r)) as NV.
  pose proof (pk3_found 2 (e_axis e2) (e_origin e2) w r G fid t2 U) as F. cbv zeta in F. rewrite !fapp_id in F. rewrite <- (rotary e2 I2) in F.
  destruct F as (h1 & h2 & SV & H).
  - exact NU.
  - exact NV.
  - rewrite G_w. change (move1 e2 t2 w) with (fapp D2 w).
    assert (Er : r = fapp D0 (fapp D1 r)).
    { unfold D0, D1. change (fapp (asFrame e1 t1) r) with (move1 e1 t1 r). rewrite axis_fixed by (auto; apply wrist_axes; auto).
      symmetry. apply (axis_fixed e0); auto; apply wrist_axes; auto. }
    rewrite Er at 2. rewrite !dist_rigid by (apply D_rigid; auto). reflexivity.
  - pose proof (rot_angle_dot (e_axis e2) (perp (e_axis e2) (vsub w (e_origin e2))) (perp (e_axis e2) (vsub r (e_origin e2))) t2 U (perp_dot _ _ U) (perp_dot _ _ U)) as RD.
    fold (raw_angle (e_axis e2) (vsub w (e_origin e2)) (vsub r (e_origin e2))) in RD.
    rewrite (rotary e2 I2) in EL at 2. rewrite move_rot_sub, rot_perp_comm in EL by exact U. unfold cos_between in EL. rewrite RD in EL.
    rewrite norm_rot in EL by (apply Rot2_rot; exact U).
    match type of EL with Rabs (?n1 * ?n2 * ?c / _) <= _ => replace (n1 * n2 * c / (n1 * n2)) with c in EL by (field; auto) end. exact EL.
  - apply ST. cbn; auto.
  - destruct H as [-> | ->]; [exists 0%nat|exists 1%nat]; (split; [lia|]); do 2 eexists; (split; [exact SV|reflexivity]).
Qed.

Lemma found2 : forall id1 id2 e e' t t' v k rhs h, In e (exps p) -> In e' (exps p) -> on_axis e k -> on_axis e' k -> cross (e_axis e) (e_axis e') <> vzero ->
  move1 e t (move1 e' t' (fapp h v)) = fapp rhs v -> two_sided e e' k (move1 e' t' (fapp h v)) -> ~ on_axis e' (fapp h v) -> ~ on_axis e (move1 e' t' (fapp h v)) ->
  settled t -> settled t' ->
  exists k0, (k0 < 2)%nat /\ exists f l, pk2_solve id1 id2 e e' v k rhs h = Some (f, l) /\ nth_error l k0 = Some [(id1, t); (id2, t')].
Proof.
  intros id1 id2 e e' t t' v k rhs h I I' O O' C EQ TS N' N S1 S2.
  destruct (through e k I O) as (s & E1), (through e' k I' O') as (s' & E2).
  destruct (wrist_axes e I) as [U _], (wrist_axes e' I') as [U' _].
  pose proof (pk2_found (e_axis e) (e_axis e') U U' (crossing e e' I I' C) id1 id2 s s' v k rhs h t t') as F. cbv zeta in F. rewrite <- E1, <- E2 in F.
  assert (OFF : forall d z, In d (exps p) -> on_axis d k -> ~ on_axis d z -> perp (e_axis d) (vsub z k) <> vzero).
  { intros d z J (u & K) NO. destruct (wrist_axes d J) as [Ud _]. pose proof (off_axis d z Ud NO) as X. intro Q. apply X.
    replace (vsub z (e_origin d)) with (vadd (vsub z k) (vscale u (e_axis d))) by (rewrite K; unfold point_on; destruct z, (e_origin d), (e_axis d); vlin).
    rewrite perp_add, Q, perp_axis by exact Ud. vlin. }
  destruct F as (l1 & l2 & SV & H); auto.
  destruct H as [-> | ->]; [exists 0%nat|exists 1%nat]; (split; [lia|]); do 2 eexists; (split; [exact SV|reflexivity]).
Qed.

Let sg (t : R) : R := if reversed then - t else t.
Lemma displ_at : forall q' i e t, nth_error (exps p) i = Some e -> nth (slot p reversed i) q' 0 = sg t -> displ p reversed q' i = asFrame e t.
Proof. intros. apply displ_of; assumption. Qed.
Lemma sg_sg : forall t, sg (sg t) = t.
Proof. intro t. unfold sg. destruct reversed; ring. Qed.

Lemma wrist_found : exists flag cands, ik_solve p (map sub_step ss) reversed target = Some (flag, cands) /\ In q cands.
Proof.
  destruct wrist_defined as (flag & cands & SV). exists flag, cands. split; [exact SV|].
  destruct found0 as (k0 & K0 & f0 & l0 & S0 & L0).
  pose proof G_w as GW. pose proof G_eq as GE. pose proof q_six as Q6.
  pose proof WA as WA'. cbn in WA'. destruct WA' as (NT & R0 & R1 & W3 & W4 & W5 & X5 & C01 & C34 & N2w & N2r & N4 & N5).
  pose proof RG as RG'. cbn in RG'. destruct RG' as (ST & EL & NS1 & NS0 & TS & NW & TW).
  assert (IN : forall i e, nth_error (exps p) i = Some e -> In e (exps p)) by (intros; eapply nth_error_In; eauto).
  assert (I0 : In e0 (exps p)) by (apply (IN 0%nat); reflexivity). assert (I1 : In e1 (exps p)) by (apply (IN 1%nat); reflexivity).
  assert (I2 : In e2 (exps p)) by (apply (IN 2%nat); reflexivity). assert (I3 : In e3 (exps p)) by (apply (IN 3%nat); reflexivity).
  assert (I4 : In e4 (exps p)) by (apply (IN 4%nat); reflexivity). assert (I5 : In e5 (exps p)) by (apply (IN 5%nat); reflexivity).
  assert (RD : rigid D0 /\ rigid D1 /\ rigid D2 /\ rigid D3 /\ rigid D4) by (repeat split; apply D_rigid; assumption).
  destruct RD as (RD0 & RD1 & RD2 & RD3 & RD4).
  destruct (found2 0 1 e0 e1 t0 t1 w r G D2) as (k1 & K1 & f1 & l1 & S1 & L1); auto; try (apply ST; cbn; auto).
  set (A := fmul D0 (fmul D1 (fmul D2 fid))).
  assert (RA : rigid A) by (repeat apply rigid_mul; auto; apply rigid_id).
  assert (GA : fmul (finv A) G = fmul D3 (fmul D4 D5)).
  { rewrite GE. replace (fmul D0 (fmul D1 (fmul D2 (fmul D3 (fmul D4 D5))))) with (fmul A (fmul D3 (fmul D4 D5))).
    - rewrite <- fmul_assoc, fmul_inv_l, fmul_id_l by exact RA. reflexivity.
    - unfold A. now rewrite fmul_id_r, !fmul_assoc. }
  destruct (found2 3 4 e3 e4 t3 t4 x w (fmul (finv A) G) fid) as (k2 & K2 & f2 & l2 & S2 & L2); auto; try (apply ST; cbn; auto 10); rewrite ?fapp_id; auto.
  { rewrite GA, !fapp_fmul. unfold move1, D3, D4. do 2 apply f_equal. symmetry. apply (axis_fixed e5); try assumption; apply wrist_axes; assumption. }
  set (B := fmul D0 (fmul D1 (fmul D2 (fmul D3 (fmul D4 fid))))).
  assert (RB : rigid B) by (repeat apply rigid_mul; auto; apply rigid_id).
  assert (GB : fmul (finv B) G = D5).
  { rewrite GE. replace (fmul D0 (fmul D1 (fmul D2 (fmul D3 (fmul D4 D5))))) with (fmul B D5).
    - rewrite <- fmul_assoc, fmul_inv_l, fmul_id_l by exact RB. reflexivity.
    - unfold B. now rewrite fmul_id_r, !fmul_assoc. }
  assert (S3 : pk1_solve 5 e5 y (fmul (finv B) G) fid = Some (true, [[(5%nat, t5)]])).
  { rewrite (rotary e5 I5). apply pk1_found.
    - apply wrist_axes, I5.
    - rewrite GB, fapp_id, <- (rotary e5 I5). reflexivity.
    - rewrite fapp_id. apply off_axis; [apply wrist_axes, I5|exact N5].
    - apply ST. cbn; auto 10. }
  assert (E : map sub_step ss = map fst (problem_steps ss)) by (unfold problem_steps; now rewrite map_map). rewrite E in SV.
  pose proof (wrist_steps_ok e0 e1 e2 e3 e4 e5 T r w x y) as OK. fold p ss in OK.
  destruct (solve_spec p reversed target POK _ _ _ OK ltac:(discriminate) SV) as (LC & _ & bs & _ & _ & DV).
  assert (FF : Forall2 (fun (s : step * list nat) k => (k < st_count (fst s))%nat) (problem_steps ss) [k0; k1; k2; 0%nat]).
  { do 4 (constructor; [cbn; lia|]). constructor. }
  destruct (choices_onto _ _ FF) as (c & L & EC). rewrite <- (computeSolutions_paths (problem_steps ss)), <- LC in L by discriminate.
  destruct (nth_error cands c) as [q'|] eqn:N; [|apply nth_error_None in N; lia].
  specialize (DV c q' N). rewrite EC in DV. apply derived_own in DV; [|exact POK|exact OK|apply (wrist_in_order e0 e1 e2 e3 e4 e5 T r w x y)].
  apply wrist_path in DV. cbv zeta in DV.
  destruct DV as (g0 & m0 & loc0 & g1 & m1 & loc1 & g2 & m2 & loc2 & g3 & m3 & loc3 & V0 & M0 & V1 & M1 & V2 & M2 & V3 & M3 & EQ & _).
  rewrite S0 in V0. assert (X : loc0 = [(2%nat, t2)]) by (clear - V0 M0 L0; congruence). subst loc0. clear V0 M0.
  assert (E1 : displ p reversed (assign p reversed [(2%nat, t2)] Z) 2 = D2).
  { apply displ_at; [reflexivity|]. unfold sg, assign, slot. destruct reversed; reflexivity. }
  rewrite E1, S1 in V1. assert (X : loc1 = [(0%nat, t0); (1%nat, t1)]) by (clear - V1 M1 L1; congruence). subst loc1. clear V1 M1 E1.
  set (q2 := assign p reversed [(0%nat, t0); (1%nat, t1)] (assign p reversed [(2%nat, t2)] Z)) in *.
  assert (E2 : product p reversed q2 0 3 = A).
  { unfold A. cbn [product seq fold_right]. repeat f_equal; apply displ_at; try reflexivity; unfold q2, sg, assign, slot; destruct reversed; reflexivity. }
  rewrite E2, S2 in V2. assert (X : loc2 = [(3%nat, t3); (4%nat, t4)]) by (clear - V2 M2 L2; congruence). subst loc2. clear V2 M2 E2.
  set (q3 := assign p reversed [(3%nat, t3); (4%nat, t4)] q2) in *.
  assert (E3 : product p reversed q3 0 5 = B).
  { unfold B. cbn [product seq fold_right]. repeat f_equal; apply displ_at; try reflexivity; unfold q3, q2, sg, assign, slot; destruct reversed; reflexivity. }
  rewrite E3, S3 in V3. assert (X : loc3 = [(5%nat, t5)]).
  { assert (m3 = [[(5%nat, t5)]]) by (clear - V3; congruence). subst. cbn in M3. clear - M3. congruence. }
  subst loc3. clear V3 M3 E3.
  assert (X : q' = q).
  { rewrite EQ. unfold q3, q2, assign, slot, Z. clear - TH. destruct reversed.
    - assert (q = rev_neg [t0; t1; t2; t3; t4; t5]) as -> by (rewrite <- TH; symmetry; apply rev_neg_rev_neg). reflexivity.
    - rewrite TH. reflexivity. }
  rewrite <- X. eapply nth_error_In. exact N.
Qed.
End Found.
