(** Concrete arms for the theorems about arms with a sliding joint. *)
From Coq Require Import QArith Reals Qreals Lra List Bool Lia Arith.
From Verif Require Import Kdl KdlFacts Screw ScrewFacts Trig TrigFacts Subproblems SubproblemSpec2 SubproblemFacts SubproblemFacts2 SubproblemFacts3 SubproblemFacts4 SubproblemFacts5 SubproblemFacts6
  IkProblem IkSpec IkProblemFacts IkProblemFacts2 IkProblemFacts3 Builder BuilderSpec IkPoseSpec IkPoseFacts IkPoseFacts2 IkPoseFacts3 BuilderRun BuilderRunFacts IkPoseArms IkPoseExamples
  SlideSpec SlideFacts SlideFacts2 SlideFacts3 SlideArms.
Import ListNotations.
Open Scope R_scope.
Local Notation S := Datatypes.S.

(** ** When a problem is found reachable *)
Lemma all_reach : forall p reversed target ss flag cands, poe_ok p -> steps_ok (length (exps p)) (problem_steps ss) -> in_order p (problem_steps ss) -> ss <> [] ->
  (forall ks q ok, length ks = length ss -> derived p reversed target own_marks (problem_steps ss) ks q ok -> ok = true) ->
  ik_solve p (map sub_step ss) reversed target = Some (flag, cands) -> flag = true.
Proof.
  intros p reversed target ss flag cands POK OK IO NE H SV.
  assert (SV' : ik_solve p (map fst (problem_steps ss)) reversed target = Some (flag, cands)) by (unfold problem_steps; rewrite map_map; exact SV).
  assert (NE' : problem_steps ss <> []) by (destruct ss; [congruence|discriminate]).
  destruct (solve_own p reversed target POK _ _ _ OK NE' IO SV') as (bs & -> & LB & DV).
  apply forallb_forall. intros b J. apply In_nth with (d := true) in J. destruct J as (c & LC & NB). rewrite LB in LC.
  destruct (nth_error cands c) as [q|] eqn:N; [|apply nth_error_None in N; lia]. specialize (DV c q N). rewrite NB in DV.
  eapply H; [|exact DV]. rewrite choices_length. unfold problem_steps. apply map_length.
Qed.
(** a body turned about an axis is told so *)
Lemma roll_flag : forall id e w x y C f l, unit (e_axis e) -> e_motion e = ROTATION -> on_axis e w -> on_axis e x -> w <> x ->
  rigid C -> fapp C w = w -> fapp C x = x -> pk1_solve id e y C fid = Some (f, l) -> f = true.
Proof.
  intros id e w x y C f l U M (s & W) (t & X) NE RC CW CX SV.
  assert (K : vsub x w = vscale (t - s) (e_axis e)) by (rewrite X, W; unfold point_on; destruct (e_origin e), (e_axis e); vlin).
  assert (NZ : t - s <> 0) by (intro Z; apply NE; rewrite X, W; replace t with s by lra; reflexivity).
  assert (MA : mv (fM C) (e_axis e) = e_axis e).
  { assert (Q : mv (fM C) (vscale (t - s) (e_axis e)) = vscale (t - s) (e_axis e)) by (rewrite <- K, <- fapp_sub, CX, CW; reflexivity).
    rewrite mv_scale in Q. generalize dependent (mv (fM C) (e_axis e)). intros v Q.
    pose proof (f_equal vx Q) as Q1. pose proof (f_equal vy Q) as Q2. pose proof (f_equal vz Q) as Q3. cbn [vx vy vz vscale] in Q1, Q2, Q3.
    apply vec_eq; eapply Rmult_eq_reg_l; eauto. }
  assert (CO : fapp C (e_origin e) = e_origin e).
  { replace (e_origin e) with (vadd w (vscale (- s) (e_axis e))) by (rewrite W; unfold point_on; destruct (e_origin e), (e_axis e); vlin).
    rewrite shifted, CW, mv_scale, MA. reflexivity. }
  set (u := vsub y (e_origin e)). set (v := vsub (fapp C y) (e_origin e)).
  assert (MV : v = mv (fM C) u) by (unfold v, u; rewrite <- CO at 1; apply fapp_sub).
  assert (D1 : dot (e_axis e) u = dot (e_axis e) v).
  { rewrite MV. transitivity (dot (mv (fM C) (e_axis e)) (mv (fM C) u)); [symmetry; apply dot_rot; exact RC|now rewrite MA]. }
  assert (D2 : dot u u = dot v v) by (rewrite MV, dot_rot; auto).
  pose proof (raw_angle_rot _ u v U D1 D2) as RA.
  destruct (pk1_complete id (e_axis e) (e_origin e) y C fid (raw_angle (e_axis e) u v) U) as (th & SV' & _).
  { rewrite fapp_id, move_rot by exact U. fold u. rewrite RA. unfold v. generalize (fapp C y). intro. vlin. }
  rewrite <- (rotary_eq e M) in SV'. rewrite SV' in SV. clear - SV. congruence.
Qed.
Lemma pk2_both : forall id1 id2 e e' t t' s s' v k rhs h f l n loc, unit (e_axis e) -> unit (e_axis e') -> e_motion e = ROTATION -> e_motion e' = ROTATION ->
  on_axis e k -> on_axis e' k -> cross (e_axis e) (e_axis e') <> vzero ->
  (move1 e t (move1 e' t' (fapp h v)) = fapp rhs v /\ two_sided e e' k (move1 e' t' (fapp h v)) /\ ~ on_axis e (move1 e' t' (fapp h v)) /\ settled t /\ settled t') ->
  (move1 e s (move1 e' s' (fapp h v)) = fapp rhs v /\ two_sided e e' k (move1 e' s' (fapp h v)) /\ ~ on_axis e (move1 e' s' (fapp h v)) /\ settled s /\ settled s') ->
  ~ on_axis e' (fapp h v) -> t <> s ->
  pk2_solve id1 id2 e e' v k rhs h = Some (f, l) -> nth_error l n = Some loc ->
  f = true /\ (loc = [(id1, t); (id2, t')] \/ loc = [(id1, s); (id2, s')]).
Proof.
  intros id1 id2 e e' t t' s s' v k rhs h f l n loc U U' M M' O O' C (M1 & T1 & N1 & A1 & B1) (M2 & T2 & N2 & A2 & B2) NO NE SV NT.
  destruct (axis_through e k M O) as (c & E1), (axis_through e' k M' O') as (c' & E2).
  assert (OFF : forall d z, unit (e_axis d) -> on_axis d k -> ~ on_axis d z -> perp (e_axis d) (vsub z k) <> vzero).
  { intros d z Ud (u & K) NOd. pose proof (off_axis d z Ud NOd) as X. intro Q. apply X.
    replace (vsub z (e_origin d)) with (vadd (vsub z k) (vscale u (e_axis d))) by (rewrite K; unfold point_on; destruct z, (e_origin d), (e_axis d); vlin).
    rewrite perp_add, Q, perp_axis by exact Ud. vlin. }
  pose proof (pk2_found (e_axis e) (e_axis e') U U' (crossed e e' U U' C) id1 id2 c c' v k rhs h t t') as F1. cbv zeta in F1. rewrite <- E1, <- E2 in F1.
  pose proof (pk2_found (e_axis e) (e_axis e') U U' (crossed e e' U U' C) id1 id2 c c' v k rhs h s s') as F2. cbv zeta in F2. rewrite <- E1, <- E2 in F2.
  destruct F1 as (l1 & l2 & S1 & H1); auto. destruct F2 as (m1 & m2 & S2 & H2); auto.
  rewrite S1 in S2. assert (m1 = l1 /\ m2 = l2) as [-> ->] by (clear - S2; split; congruence). clear S2.
  rewrite S1 in SV. assert (f = true /\ l = [l1; l2]) as [-> ->] by (clear - SV; split; congruence). split; [reflexivity|].
  assert (DF : [(id1, t); (id2, t')] <> [(id1, s); (id2, s')]) by (clear - NE; congruence).
  destruct n as [|[|n]]; cbn in NT; [| |destruct n; discriminate].
  - assert (loc = l1) by (clear - NT; congruence). subst. destruct H1 as [H1|H1]; [auto|]. destruct H2 as [H2|H2]; [auto|]. exfalso. apply DF. congruence.
  - assert (loc = l2) by (clear - NT; congruence). subst. destruct H1 as [H1|H1]; [|auto]. destruct H2 as [H2|H2]; [|auto]. exfalso. apply DF. congruence.
Qed.

(** ** Two parallel rotations stretched along the x axis *)
Definition ya := E ROTATION (V 0 0 1) (V 0 0 0).
Definition yb := E ROTATION (V 0 0 1) (V 1 0 0).
Definition yw := V 2 0 0.
Lemma z_unit : unit (V 0 0 1). Proof. unfold unit, dot; cbn; ring. Qed.
Lemma norm_x : forall a, 0 <= a -> norm (V a 0 0) = a.
Proof. intros a H. unfold norm. replace (dot (V a 0 0) (V a 0 0)) with (a * a) by (unfold dot; cbn; ring). now apply sqrt_square. Qed.
Lemma perp_x : forall a b, perp (V 0 0 1) (V a 0 b) = V a 0 0.
Proof. intros. unfold perp, dot. apply vec_eq; cbn; ring. Qed.
Lemma sub_x : forall a b c d, vsub (V a 0 c) (V b 0 d) = V (a - b) 0 (c - d).
Proof. intros. apply vec_eq; cbn; ring. Qed.
Ltac lens := unfold away, ya, yb, yw; cbn [e_axis e_origin]; rewrite ?sub_x, ?perp_x; rewrite ?norm_x by lra.
Lemma y_regular : pair_regular ya yb yw 0 0.
Proof.
  pose proof eps_lt. pose proof set_0. split; [assumption|]. split; [assumption|].
  replace (move1 yb 0 yw) with yw by (unfold yb, yw; rewrite spin_z, sin_0, cos_0; apply vec_eq; cbn; ring).
  replace (move1 ya 0 yw) with yw by (unfold ya, yw; rewrite spin_z, sin_0, cos_0; apply vec_eq; cbn; ring).
  unfold ya, yb, yw. split; [off|]. split; [off|]. unfold unfolded. lens. lra.
Qed.
Lemma y_unfolded : unfolded ya yb yw yw. Proof. pose proof eps_lt. unfold unfolded. lens. lra. Qed.
Lemma stretched : forall i j rhs h f l n loc, fapp h yw = yw -> fapp rhs yw = yw ->
  pg4_solve i j ya yb yw rhs h = Some (f, l) -> nth_error l n = Some loc -> f = true /\ loc = [(i, 0); (j, 0)].
Proof.
  intros i j rhs h f l n loc HH HR SV NT. pose proof eps_lt as EL. pose proof y_regular as (S0 & _ & N1 & N2 & UF). pose proof kdl_eps_pos as EP.
  assert (MV : move1 ya 0 (move1 yb 0 yw) = yw) by (unfold ya, yb, yw; rewrite !spin_z, sin_0, cos_0; apply vec_eq; cbn; ring).
  assert (PA : parallel ya yb) by (left; reflexivity).
  destruct (pg4_used i j ya yb 0 0 yw rhs h z_unit eq_refl eq_refl PA) as (k & LK & f' & l' & SV' & NK); rewrite ?HH, ?HR; auto.
  { lens. lra. } { exact y_unfolded. }
  rewrite SV' in SV. assert (f' = f /\ l' = l) as [-> ->] by (clear - SV; split; congruence). clear SV.
  pose proof (pg4_unfold i j (V 0 0 1) (V 0 0 0) (V 0 0 1) (V 1 0 0) yw 1 rhs h z_unit ltac:(ring) ltac:(apply vec_eq; cbn; ring)) as PU.
  cbv zeta in PU. rewrite HH, HR in PU. fold ya yb in PU. rewrite SV' in PU. unfold yw in PU. rewrite !sub_x, !perp_x in PU. rewrite !norm_x in PU by lra.
  assert (C1 : kdl_eps <= 1 - 0) by lra. specialize (PU C1).
  assert (C2 : dot (V 0 0 1) (V (2 - 1) 0 (0 - 0)) - dot (V 0 0 1) (V (2 - 0) 0 (0 - 0)) = dot (V 0 0 1) (V (0 - 1) 0 (0 - 0))) by (unfold dot; cbn; ring).
  specialize (PU C2). clear C1 C2.
  rewrite (proj2 (Equal_false _ 0)) in PU by (rewrite Rminus_0_r, Rabs_pos_eq; lra). rewrite (proj2 (Rltb_true 0 _)) in PU by lra. cbn [negb andb] in PU.
  match type of PU with context [sqrt (Rabs ?z)] => replace z with 0 in PU by field end. rewrite Rabs_R0, sqrt_0 in PU.
  match type of PU with context [vsub ?b (vscale 0 ?o)] => replace (vsub b (vscale 0 o)) with (vadd b (vscale 0 o)) in PU by (generalize b, o; intros; vlin) end.
  match type of PU with Some (_, _) = Some (?g, [?c; _]) => assert (f = g /\ l = [c; c]) as [EF ->] by (clear - PU; split; congruence) end.
  assert (LE : forall m z, nth_error [z; z] m = Some loc -> z = loc) by (intros [|[|[|m]]] z Q; cbn in Q; congruence). apply LE in NT.
  assert (LE' : forall m z (q : local_solution), nth_error [z; z] m = Some q -> z = q) by (intros [|[|[|m]]] z q Q; cbn in Q; congruence). apply LE' in NK.
  split; [|congruence]. rewrite EF. apply Equal_true.
  match goal with |- context [vadd (vadd ?c (vscale ?k (vscale ?m ?d))) (vscale 0 ?o)] => replace (vadd (vadd c (vscale k (vscale m d))) (vscale 0 o)) with (V 2 0 0) by (apply vec_eq; cbn; field) end.
  rewrite sub_x, perp_x, norm_x by lra. rewrite Rminus_diag_eq by ring. rewrite Rabs_R0. exact EP.
Qed.

(** ** A shoulder with axes z and y, a joint that slides along y and a wrist *)
Definition sp := P [x0; x1; E TRANSLATION (V 0 1 0) (V 0 0 0); x3; x4; x5] xt.
Local Notation s2 := (E TRANSLATION (V 0 1 0) (V 0 0 0)).
Local Notation SW := (sliding_steps (exps sp) xr xw xx xy).
Ltac units := repeat apply Forall_cons; try apply Forall_nil; cbn; unfold unit, dot; cbn; ring.
Lemma s_ok : poe_ok sp.
Proof. split; [|apply rigid_trans]. cbn [exps sp]. units. Qed.
Lemma x_wrist_part : wrist_part x3 x4 x5 xw xx xy.
Proof.
  pose proof x_arm as A. cbn in A. destruct A as (NT & R0 & R1 & W3 & W4 & W5 & X5 & C01 & C34 & N2w & N2r & N4 & N5). do 3 (split; [reflexivity|]). auto 10.
Qed.
Lemma s_arm : sliding_arm (exps sp) xr xw xx xy.
Proof.
  pose proof x_arm as A. cbn in A. destruct A as (NT & R0 & R1 & W3 & W4 & W5 & X5 & C01 & _). cbn [sliding_arm exps sp]. do 3 (split; [reflexivity|]).
  split; [exact R0|]. split; [exact R1|]. split; [exact C01|]. exact x_wrist_part.
Qed.
Lemma x_wrist_regular : wrist_regular x3 x4 x5 xw xx 0 0 0.
Proof.
  pose proof set_0. pose proof x_home_regular as RG. cbn [regular exps xp repeat] in RG. cbv zeta in RG. destruct RG as (_ & _ & _ & _ & _ & N & T). unfold wrist_regular. auto 10.
Qed.
(** slid out by one metre *)
Definition sq : list R := [0; 0; 1; 0; 0; 0].
Lemma s_regular : sliding_regular (exps sp) xr xw xx sq.
Proof.
  pose proof set_0. pose proof eps_lt. cbn [sliding_regular exps sp sq]. cbv zeta. split; [assumption|]. split; [assumption|].
  split. { replace (dot _ _) with 0 by (unfold dot, xr, xw; cbn; ring). lra. }
  replace (move1 s2 1 xw) with (V 1 1 1) by (rewrite move_trans; unfold xw; apply vec_eq; cbn; ring).
  replace (move1 x1 0 (V 1 1 1)) with (V 1 1 1) by (spin; apply vec_eq; cbn; ring).
  split; [|exact x_wrist_regular]. split; [unfold x1; off|]. split; [unfold x0; off|].
  right. cbv zeta. match goal with |- _ <= ?g * ?g => replace g with (-1) by (unfold dot, cross, x0, x1, xr; cbn; field) end. lra.
Qed.
Lemma s_slide : forall f l n loc, pg3_solve 2 s2 xw xr fid fid = Some (f, l) -> nth_error l n = Some loc -> f = true /\ loc = [(2%nat, 0)].
Proof.
  intros f l n loc SV NT. rewrite (pg3_unfold 2 (V 0 1 0) (V 0 0 0)) in SV by (unfold unit, dot; cbn; ring). cbv zeta in SV. rewrite !fapp_id in SV.
  replace (dot (V 0 1 0) (vsub xr xw)) with 0 in SV by (unfold dot, xr, xw; cbn; ring).
  replace (0 * 0 - dot (vsub xr xw) (vsub xr xw) + dist xw xr * dist xw xr) with 0 in SV by (unfold dist; rewrite norm_sqr; unfold dot, xr, xw; cbn; ring).
  rewrite (proj2 (Equal_true 0 0)) in SV by (rewrite Rminus_0_r, Rabs_R0; apply kdl_eps_pos). cbn [negb andb] in SV. rewrite Rabs_R0 in SV.
  assert (f = true /\ l = [[(2%nat, 0)]; [(2%nat, 0)]]) as [-> ->] by (clear - SV; split; congruence). split; [reflexivity|].
  destruct n as [|[|[|n]]]; cbn in NT; congruence.
Qed.
Lemma at_home : forall p n, poe_ok p -> length (exps p) = n -> evaluate p (repeat 0 n) = Some (tool p).
Proof.
  intros p n [U _] L. subst n. rewrite evaluate_some by apply repeat_length. f_equal. destruct p as [es T]. cbn [exps tool] in *. 
  assert (E : eval_terms es (repeat 0 (length es)) fid = fid).
  { induction U as [|e es UE U IH]; [reflexivity|]. cbn [length repeat]. rewrite eval_terms_step. rewrite (asFrame_0 e UE), IH. apply fmul_id_l. }
  rewrite E. apply fmul_id_l.
Qed.
Lemma s_reachable : exists cands, ik_solve sp (map sub_step SW) false xt = Some (true, cands) /\ cands <> [].
Proof.
  destruct (sliding_defined x0 x1 s2 x3 x4 x5 xt xr xw xx xy false xt s_ok s_arm) as (flag & cands & SV).
  pose proof (sliding_steps_ok x0 x1 s2 x3 x4 x5 xt xr xw xx xy) as OK. pose proof (sliding_in_order x0 x1 s2 x3 x4 x5 xt xr xw xx xy) as IO. fold sp in SV, OK, IO.
  assert (FT : flag = true).
  { apply (all_reach sp false xt SW flag cands s_ok OK IO ltac:(discriminate)); [|exact SV].
    intros ks q ok LK DV. destruct ks as [|k0 [|k1 [|k2 [|k3 [|]]]]]; try discriminate.
    apply (sliding_path x0 x1 s2 x3 x4 x5 xt xr xw xx xy false xt) in DV. cbv zeta in DV. fold sp in DV.
    destruct DV as (g0 & m0 & loc0 & g1 & m1 & loc1 & g2 & m2 & loc2 & g3 & m3 & loc3 & V0 & M0 & V1 & M1 & V2 & M2 & V3 & M3 & _ & ->).
    replace (goal sp false xt) with fid in V0, V1, V2, V3 by (unfold goal; cbn [tool sp]; now rewrite fmul_inv_r by apply rigid_trans).
    destruct (s_slide _ _ _ _ V0 M0) as [-> ->].
    assert (Z2 : asFrame s2 0 = asFrame x2 0) by (rewrite !asFrame_0; [reflexivity| |]; unfold unit, dot; cbn; ring).
    change (displ sp false (assign sp false [(2%nat, 0)] (repeat 0 6)) 2) with (asFrame s2 0) in V1. rewrite Z2 in V1.
    destruct (x_shoulder 0 _ _ _ _ (or_introl eq_refl) V1 M1) as (-> & t0 & t1 & -> & C1).
    match type of V2 with pk2_solve _ _ _ _ _ _ (fmul (finv ?b) _) _ = _ => change b with (fmul (asFrame x0 t0) (fmul (asFrame x1 t1) (fmul (asFrame s2 0) fid))) in V2 end.
    rewrite Z2 in V2. fold (inner t0 t1 0) in V2.
    destruct (x_wrist _ _ _ _ _ _ _ C1 V2 M2) as (-> & FW & t3 & t4 & -> & FX).
    match type of V3 with pk1_solve _ _ _ (fmul (finv ?b) _) _ = _ => change b with (fmul (asFrame x0 t0) (fmul (asFrame x1 t1) (fmul (asFrame s2 0) (fmul (asFrame x3 t3) (fmul (asFrame x4 t4) fid))))) in V3 end.
    rewrite Z2 in V3. set (B := fmul _ _) in V3 at 2.
    assert (BB : forall v, fapp B v = fapp (inner t0 t1 0) (move1 x3 t3 (move1 x4 t4 v))).
    { intro v. unfold B. rewrite inner_app, !fapp_fmul, fapp_id. reflexivity. }
    assert (g3 = true) as ->; [|reflexivity]. eapply (x_roll B); [| | |exact V3].
    - unfold B. repeat apply rigid_mul; try apply rigid_id; apply x_rigid; cbn; auto 10.
    - rewrite BB. replace (move1 x4 t4 xw) with xw by (spin; apply vec_eq; cbn; ring). replace (move1 x3 t3 xw) with xw by (spin; apply vec_eq; cbn; ring). exact FW.
    - rewrite BB. exact FX. }
  subst flag. exists cands. split; [exact SV|]. intros ->.
  destruct (path_candidate sp false xt SW true [] [0%nat; 0%nat; 0%nat; 0%nat] s_ok OK IO ltac:(discriminate) SV) as (q & ok & I & _); [|destruct I].
  do 4 (constructor; [cbn; lia|]). constructor.
Qed.
Definition s_q : qpoe := QP
  [QE ROTATION (QV 0 0 1) qzero; QE ROTATION (QV 0 1 0) qzero; QE TRANSLATION (QV 0 1 0) qzero; QE ROTATION (QV 0 1 0) (QV 1 0 1); QE ROTATION (QV 1 0 0) (QV 1 0 1); QE ROTATION (QV 0 0 1) (QV 1 0 1)]%Q
  (qat (QV 1 0 0)%Q).
Ltac drawn_arm p q := assert (Q1 : Q2R 1 = 1) by (unfold Q2R; cbn; lra); assert (Q2 : Q2R 2 = 2) by (unfold Q2R; cbn; lra);
  assert (EQ : rp q = p) by (unfold rp, q, p, ya, yb, x0, x1, x3, x4, x5, xt, re, rf, qat, rv, ftrans, mid; cbn [q_exps q_tool map q_motion q_axis q_origin q_r0 q_r1 q_r2 q_p qx qy qz qzero]; rewrite ?Q1, ?Q2, ?r_0; reflexivity);
  rewrite <- EQ at 1; rewrite run_build;
  match goal with |- context [qbuild ?a ?b ?c] => let v := eval vm_compute in (qbuild a b c) in replace (qbuild a b c) with v by (vm_compute; reflexivity) end;
  cbn [rout option_map]; unfold rbuilt; cbn [fst snd map rs]; clear EQ;
  unfold sliding_steps, linear_steps, scara_steps, p, ya, yb, yw, x0, x1, x3, x4, x5, xt, xr, xw, xx, xy, rp, re, rf, rv, ftrans, mid; cbn [exps q_exps q_tool map q_motion q_axis q_origin q_r0 q_r1 q_r2 q_p qx qy qz];
  rewrite ?Q1, ?Q2, ?r_0.
Lemma s_built : build 1000 (map Q2R x_draws) sp = Returns (Some (sp, SW, false)).
Proof. drawn_arm sp s_q. reflexivity. Qed.

(** ** A joint that slides along z, two rotations about axes along z and a wrist *)
Local Notation l0 := (E TRANSLATION (V 0 0 1) (V 0 0 0)).
Definition l3 := E ROTATION (V 0 1 0) yw.
Definition l4 := E ROTATION (V 1 0 0) yw.
Definition l5 := E ROTATION (V 0 0 1) yw.
Definition lt := ftrans yw.
Definition lp := P [E TRANSLATION (V 0 0 1) (V 0 0 0); ya; yb; l3; l4; l5] lt.
Definition lx := V 2 0 1.
Definition ly := V 0 0 0.
Local Notation LW := (linear_steps (exps lp) yw lx ly).
Lemma l_ok : poe_ok lp.
Proof. split; [|apply rigid_trans]. cbn [exps lp]. units. Qed.
Lemma l_wrist : wrist_part l3 l4 l5 yw lx ly.
Proof.
  unfold wrist_part, l3, l4, l5, yw, lx, ly. do 3 (split; [reflexivity|]). do 3 (split; [on 0|]). split; [on 1|].
  split; [intro Q; apply (f_equal vz) in Q; cbn in Q; lra|]. split; off.
Qed.
Lemma l_arm : linear_arm (exps lp) yw lx ly.
Proof.
  cbn [linear_arm exps lp]. do 3 (split; [reflexivity|]). split; [left; reflexivity|]. split; [left; reflexivity|].
  split; [|exact l_wrist]. lens. pose proof eps_lt. lra.
Qed.
Lemma l_regular : linear_regular (exps lp) yw lx (repeat 0 6).
Proof.
  pose proof set_0. pose proof eps_lt. cbn [linear_regular exps lp repeat]. split; [exact y_regular|].
  split; [assumption|]. split; [assumption|]. split; [assumption|]. cbv zeta.
  replace (move1 l4 0 lx) with lx by (unfold l4, lx, yw; rewrite spin_x, sin_0, cos_0; apply vec_eq; cbn; ring).
  unfold lx, l3, l4, yw. split; [off|]. apply sided; unfold dot, cross; cbn; [rewrite Rabs_left; lra|ring].
Qed.
Lemma l_unfolded : pair_unfolded (exps lp) yw (carried lp lt yw).
Proof.
  cbn [pair_unfolded exps lp]. replace (carried lp lt yw) with yw; [exact y_unfolded|].
  unfold carried. cbn [tool lp]. rewrite fapp_inv_r by apply rigid_trans. reflexivity.
Qed.
Lemma l_reachable : exists cands, ik_solve lp (map sub_step LW) false lt = Some (true, cands) /\ In (repeat 0 6) cands.
Proof.
  destruct (linear_found l0 ya yb l3 l4 l5 lt yw lx ly false lt l_ok l_arm 0 0 0 0 0 0 (repeat 0 6) eq_refl (at_home lp 6 l_ok eq_refl) l_regular) as (flag & cands & SV & I).
  pose proof (linear_steps_ok l0 ya yb l3 l4 l5 lt yw lx ly) as OK. pose proof (linear_in_order l0 ya yb l3 l4 l5 lt yw lx ly) as IO. fold lp in SV, OK, IO.
  assert (FT : flag = true); [|subst flag; eauto].
  apply (all_reach lp false lt LW flag cands l_ok OK IO ltac:(discriminate)); [|exact SV].
  intros ks q ok LK DV. destruct ks as [|k0 [|k1 [|k2 [|k3 [|]]]]]; try discriminate.
  apply (linear_path l0 ya yb l3 l4 l5 lt yw lx ly false lt) in DV. cbv zeta in DV. fold lp in DV.
  destruct DV as (g0 & m0 & loc0 & g1 & m1 & loc1 & g2 & m2 & loc2 & g3 & m3 & loc3 & V0 & M0 & V1 & M1 & V2 & M2 & V3 & M3 & _ & ->).
  replace (goal lp false lt) with fid in V0, V1, V2, V3 by (unfold goal; cbn [tool lp]; now rewrite fmul_inv_r by apply rigid_trans).
  assert (A0 : g0 = true /\ loc0 = [(0%nat, 0)]).
  { unfold pg1_solve in V0. replace (dot _ _) with 0 in V0 by (rewrite !fapp_id; unfold dot, yw; cbn; ring).
    assert (g0 = true /\ m0 = [[(0%nat, 0)]]) as [-> ->] by (clear - V0; split; congruence). split; [reflexivity|]. destruct k0 as [|[|]]; cbn in M0; congruence. }
  destruct A0 as [-> ->].
  assert (Z0 : asFrame l0 0 = fid) by (apply asFrame_0; unfold unit, dot; cbn; ring).
  match type of V1 with pg4_solve _ _ _ _ _ (fmul (finv ?b) _) _ = _ => change b with (fmul (asFrame l0 0) fid) in V1 end. rewrite Z0, fmul_id_l, finv_id, fmul_id_l in V1.
  destruct (stretched 1 2 fid fid _ _ _ _ (fapp_id yw) (fapp_id yw) V1 M1) as [-> ->].
  assert (Z1 : asFrame ya 0 = fid) by (apply asFrame_0; unfold unit, dot; cbn; ring). assert (Z2 : asFrame yb 0 = fid) by (apply asFrame_0; unfold unit, dot; cbn; ring).
  match type of V2 with pk2_solve _ _ _ _ _ _ (fmul (finv ?b) _) _ = _ => change b with (fmul (asFrame l0 0) (fmul (asFrame ya 0) (fmul (asFrame yb 0) fid))) in V2 end.
  rewrite Z0, Z1, Z2, !fmul_id_l, finv_id, fmul_id_l in V2.
  assert (A2 : g2 = true /\ (loc2 = [(3%nat, 0); (4%nat, 0)] \/ loc2 = [(3%nat, PI); (4%nat, PI)])).
  { destruct l_wrist as (M3' & M4' & M5' & W3 & W4 & W5 & X5 & C34 & N4 & N5).
    assert (U3 : unit (e_axis l3)) by (unfold unit, dot; cbn; ring). assert (U4 : unit (e_axis l4)) by (unfold unit, dot; cbn; ring).
    pose proof set_0. pose proof set_pi. pose proof PI_RGT_0.
    apply (pk2_both 3 4 l3 l4 0 0 PI PI lx yw fid fid g2 m2 k2 loc2 U3 U4 M3' M4' W3 W4 C34); rewrite ?fapp_id; auto.
    - replace (move1 l4 0 lx) with lx by (unfold l4, lx, yw; rewrite spin_x, sin_0, cos_0; apply vec_eq; cbn; ring).
      split; [unfold l3, lx, yw; rewrite spin_y, sin_0, cos_0; apply vec_eq; cbn; ring|].
      split; [unfold lx, l3, l4, yw; apply sided; unfold dot, cross; cbn; [rewrite Rabs_left; lra|ring]|]. split; [unfold l3, yw, lx; off|]. auto.
    - replace (move1 l4 PI lx) with (V 2 0 (-1)) by (unfold l4, lx, yw; rewrite spin_x, sin_PI, cos_PI; apply vec_eq; cbn; ring).
      split; [unfold l3, lx, yw; rewrite spin_y, sin_PI, cos_PI; apply vec_eq; cbn; ring|].
      split; [unfold lx, l3, l4, yw; apply sided; unfold dot, cross; cbn; [rewrite Rabs_pos_eq; lra|ring]|]. split; [unfold l3, yw, lx; off|]. auto.
    - lra. }
  destruct A2 as [-> A2].
  assert (exists t3 t4, loc2 = [(3%nat, t3); (4%nat, t4)] /\ move1 l3 t3 (move1 l4 t4 lx) = lx) as (t3 & t4 & -> & FX).
  { destruct A2 as [-> | ->]; do 2 eexists; (split; [reflexivity|]); unfold l3, l4, lx, yw; rewrite spin_x, spin_y, ?sin_PI, ?cos_PI, ?sin_0, ?cos_0; apply vec_eq; cbn; ring. }
  match type of V3 with pk1_solve _ _ _ (fmul (finv ?b) _) _ = _ => change b with (fmul (asFrame l0 0) (fmul (asFrame ya 0) (fmul (asFrame yb 0) (fmul (asFrame l3 t3) (fmul (asFrame l4 t4) fid))))) in V3 end.
  rewrite Z0, Z1, Z2, !fmul_id_l, !fmul_id_r in V3. set (B := fmul (asFrame l3 t3) (asFrame l4 t4)) in V3.
  assert (RB : rigid B) by (apply rigid_mul; apply asFrame_rigid; unfold unit, dot; cbn; ring).
  assert (BW : fapp B yw = yw).
  { unfold B. rewrite fapp_fmul. change (fapp (asFrame l4 t4) yw) with (move1 l4 t4 yw).
    replace (move1 l4 t4 yw) with yw by (unfold l4, yw; rewrite spin_x; apply vec_eq; cbn; ring).
    change (fapp (asFrame l3 t3) yw) with (move1 l3 t3 yw). unfold l3, yw; rewrite spin_y; apply vec_eq; cbn; ring. }
  assert (BX : fapp B lx = lx) by (unfold B; rewrite fapp_fmul; exact FX).
  assert (g3 = true) as ->; [|reflexivity]. destruct l_wrist as (M3' & M4' & M5' & W3 & W4 & W5 & X5 & _).
  eapply (roll_flag 5 l5 yw lx ly (finv B)); [| | | | | | | |exact V3]; auto.
  - unfold unit, dot; cbn; ring.
  - intro Q. apply (f_equal vz) in Q. cbn in Q. lra.
  - apply rigid_inv, RB.
  - rewrite <- BW at 1. apply fapp_inv_l, RB.
  - rewrite <- BX at 1. apply fapp_inv_l, RB.
Qed.
Definition l_q : qpoe := QP
  [QE TRANSLATION (QV 0 0 1) qzero; QE ROTATION (QV 0 0 1) qzero; QE ROTATION (QV 0 0 1) (QV 1 0 0); QE ROTATION (QV 0 1 0) (QV 2 0 0); QE ROTATION (QV 1 0 0) (QV 2 0 0); QE ROTATION (QV 0 0 1) (QV 2 0 0)]%Q
  (qat (QV 2 0 0)%Q).
Definition l_draws : list Q := [1 # 2; 1 # 3; 1 # 5; 1 # 7; 1 # 1; 1 # 13; 1 # 2; 1 # 3; 1 # 5; 1 # 7; 1 # 11; 1 # 13].
Lemma l_built : build 1000 (map Q2R l_draws) lp = Returns (Some (lp, LW, false)).
Proof. unfold lt, l3, l4, l5 in *. drawn_arm lp l_q. reflexivity. Qed.

(** ** Three rotations about axes along z and a joint that slides along z *)
Local Notation c2 := (E TRANSLATION (V 0 0 1) (V 0 0 0)).
Definition cp := P [ya; yb; E TRANSLATION (V 0 0 1) (V 0 0 0); l5] lt.
Local Notation CW := (scara_steps (exps cp) yw ly).
Lemma c_ok : poe_ok cp.
Proof. split; [|apply rigid_trans]. cbn [exps cp]. units. Qed.
Lemma c_arm : scara_arm (exps cp) yw ly.
Proof.
  cbn [scara_arm exps cp]. do 4 (split; [reflexivity|]). do 3 (split; [left; reflexivity|]). split; [lens; pose proof eps_lt; lra|].
  unfold l5, yw, ly. split; [on 0|off].
Qed.
Lemma c_regular : scara_regular (exps cp) yw (repeat 0 4).
Proof. cbn [scara_regular exps cp repeat]. split; [exact y_regular|exact set_0]. Qed.
Lemma c_still : forall target, fapp (goal cp false target) yw = yw -> fapp (goal cp false target) ly = ly ->
  exists cands, ik_solve cp (map sub_step CW) false target = Some (true, cands) /\ In (repeat 0 4) cands.
Proof.
  intros target GW GY.
  destruct (scara_defined ya yb c2 l5 lt yw ly false target c_ok c_arm) as (flag & cands & SV).
  pose proof (scara_steps_ok ya yb c2 l5 lt yw ly) as OK. pose proof (scara_in_order ya yb c2 l5 lt yw ly) as IO. fold cp in SV, OK, IO.
  assert (PATH : forall ks q ok, length ks = length CW -> derived cp false target own_marks (problem_steps CW) ks q ok -> ok = true /\ q = repeat 0 4).
  { intros ks q ok LK DV. destruct ks as [|k0 [|k1 [|k2 [|]]]]; try discriminate.
    apply (scara_path ya yb c2 l5 lt yw ly false target) in DV. cbv zeta in DV. fold cp in DV. set (G := goal cp false target) in *.
    destruct DV as (g0 & m0 & loc0 & g1 & m1 & loc1 & g2 & m2 & loc2 & V0 & M0 & V1 & M1 & V2 & M2 & -> & ->).
    assert (A0 : g0 = true /\ loc0 = [(2%nat, 0)]).
    { unfold pg1_solve in V0. replace (dot _ _) with 0 in V0 by (rewrite fapp_id, GW; unfold dot, yw; cbn; ring).
      assert (g0 = true /\ m0 = [[(2%nat, 0)]]) as [-> ->] by (clear - V0; split; congruence). split; [reflexivity|]. destruct k0 as [|[|]]; cbn in M0; congruence. }
    destruct A0 as [-> ->].
    assert (Z0 : asFrame ya 0 = fid) by (apply asFrame_0; unfold unit, dot; cbn; ring). assert (Z1 : asFrame yb 0 = fid) by (apply asFrame_0; unfold unit, dot; cbn; ring).
    assert (Z2 : asFrame c2 0 = fid) by (apply asFrame_0; unfold unit, dot; cbn; ring).
    change (displ cp false (assign cp false [(2%nat, 0)] (repeat 0 4)) 2) with (asFrame c2 0) in V1. rewrite Z2 in V1.
    destruct (stretched 0 1 G fid _ _ _ _ (fapp_id yw) GW V1 M1) as [-> ->].
    match type of V2 with pk1_solve _ _ _ (fmul (finv ?b) _) _ = _ => change b with (fmul (asFrame ya 0) (fmul (asFrame yb 0) (fmul (asFrame c2 0) fid))) in V2 end.
    rewrite Z0, Z1, Z2, !fmul_id_l, finv_id, fmul_id_l in V2.
    assert (S3 : pk1_solve 3 l5 ly G fid = Some (true, [[(3%nat, 0)]])).
    { apply pk1_found; [apply z_unit| | |exact set_0].
      - rewrite fapp_id, GY. unfold move1. rewrite asFrame_0 by exact z_unit. apply fapp_id.
      - rewrite fapp_id. intro Q. apply (f_equal vx) in Q. cbn in Q. lra. }
    rewrite S3 in V2. assert (g2 = true /\ m2 = [[(3%nat, 0)]]) as [-> ->] by (clear - V2; split; congruence).
    assert (loc2 = [(3%nat, 0)]) as -> by (destruct k2 as [|[|]]; cbn in M2; congruence). split; reflexivity. }
  assert (FT : flag = true) by (apply (all_reach cp false target CW flag cands c_ok OK IO ltac:(discriminate)); [intros ks q ok LK DV; exact (proj1 (PATH ks q ok LK DV))|exact SV]).
  subst flag. exists cands. split; [exact SV|].
  destruct (path_candidate cp false target CW true cands [0%nat; 0%nat; 0%nat] c_ok OK IO ltac:(discriminate) SV) as (q & ok & I & DV).
  { do 3 (constructor; [cbn; lia|]). constructor. }
  destruct (PATH [0%nat; 0%nat; 0%nat] q ok eq_refl DV) as [_ ->]. exact I.
Qed.
Lemma c_reachable : exists cands, ik_solve cp (map sub_step CW) false lt = Some (true, cands) /\ In (repeat 0 4) cands.
Proof.
  assert (G : goal cp false lt = fid) by (unfold goal; cbn [tool cp]; now rewrite fmul_inv_r by apply rigid_trans).
  apply c_still; rewrite G; apply fapp_id.
Qed.
Lemma c_unfolded : pair_unfolded (exps cp) yw (carried cp lt yw).
Proof.
  cbn [pair_unfolded exps cp]. replace (carried cp lt yw) with yw; [exact y_unfolded|].
  unfold carried. cbn [tool cp]. rewrite fapp_inv_r by apply rigid_trans. reflexivity.
Qed.
Lemma c_upright : upright (exps cp) (fmul lt (finv (tool cp))).
Proof. cbn [upright exps cp tool]. rewrite fmul_inv_r by apply rigid_trans. apply mv_id. Qed.
(** half a turn about the x axis *)
Definition tilted : frame := fmul (F (Rot2 (V 1 0 0) PI) vzero) lt.
Lemma tilted_rigid : rigid tilted.
Proof. unfold tilted. apply rigid_mul; [|apply rigid_trans]. unfold rigid. cbn [fM]. apply Rot2_rot. unfold unit, dot; cbn; ring. Qed.
Lemma c_tilted : exists cands q f, ik_solve cp (map sub_step CW) false tilted = Some (true, cands) /\ In q cands /\ evaluate cp q = Some f /\
  mv (fM f) (V 0 0 1) = V 0 0 1 /\ mv (fM tilted) (V 0 0 1) = V 0 0 (-1).
Proof.
  assert (G : goal cp false tilted = F (Rot2 (V 1 0 0) PI) vzero).
  { unfold goal, tilted. cbn [tool cp]. rewrite fmul_assoc, fmul_inv_r by apply rigid_trans. apply fmul_id_r. }
  assert (AX : forall a, fapp (F (Rot2 (V 1 0 0) PI) vzero) (V a 0 0) = V a 0 0) by (intro a; apply vec_eq; cbn; ring).
  destruct (c_still tilted) as (cands & SV & I); try (rewrite G; apply AX). exists cands, (repeat 0 4), lt.
  split; [exact SV|]. split; [exact I|]. split; [exact (at_home cp 4 c_ok eq_refl)|]. split; [apply mv_id|].
  unfold tilted, fmul. cbn [fM]. rewrite mv_mm. cbn [lt ftrans fM]. rewrite mv_id. apply vec_eq; cbn; rewrite ?sin_PI, ?cos_PI; ring.
Qed.
Definition c_q : qpoe := QP
  [QE ROTATION (QV 0 0 1) qzero; QE ROTATION (QV 0 0 1) (QV 1 0 0); QE TRANSLATION (QV 0 0 1) qzero; QE ROTATION (QV 0 0 1) (QV 2 0 0)]%Q
  (qat (QV 2 0 0)%Q).
Lemma c_built : build 1000 (map Q2R x_draws) cp = Returns (Some (cp, CW, false)).
Proof. drawn_arm cp c_q. reflexivity. Qed.
Lemma scara_refutes : exists fuel draws p w y target cands q f,
  poe_ok p /\ scara_arm (exps p) w y /\ build fuel draws p = Returns (Some (p, scara_steps (exps p) w y, false)) /\ rigid target /\
  pair_unfolded (exps p) w (carried p target w) /\
  ik_solve p (map sub_step (scara_steps (exps p) w y)) false target = Some (true, cands) /\ In q cands /\ evaluate p q = Some f /\
  mv (fM f) (V 0 0 1) = V 0 0 1 /\ mv (fM target) (V 0 0 1) = V 0 0 (-1).
Proof.
  destruct c_tilted as (cands & q & f & SV & I & EV & A & B). exists 1000%nat, (map Q2R x_draws), cp, yw, ly, tilted, cands, q, f.
  split; [exact c_ok|]. split; [exact c_arm|]. split; [exact c_built|]. split; [exact tilted_rigid|]. split; [|auto].
  cbn [pair_unfolded exps cp]. replace (carried cp tilted yw) with yw; [exact y_unfolded|].
  unfold carried, tilted. cbn [tool cp]. rewrite (fapp_fmul (F (Rot2 (V 1 0 0) PI) vzero)), fapp_inv_r by apply rigid_trans. apply vec_eq; cbn; ring.
Qed.
