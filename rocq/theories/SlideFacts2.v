(** Proofs about the poses reached by arms with a sliding joint: what the flag guarantees. *)
From Coq Require Import Reals Lra List Bool Lia Arith.
From Verif Require Import Kdl KdlFacts Screw ScrewFacts Trig TrigFacts Subproblems SubproblemSpec2 SubproblemFacts SubproblemFacts2 SubproblemFacts3 SubproblemFacts4 SubproblemFacts5 SubproblemFacts6
  IkProblem IkSpec IkProblemFacts IkProblemFacts2 IkProblemFacts3 Builder BuilderSpec IkPoseSpec IkPoseFacts IkPoseFacts2 IkPoseFacts3 SlideSpec SlideFacts.
Import ListNotations.
Open Scope R_scope.
Local Notation S := Datatypes.S.

Lemma choices_length : forall ss c, length (choices ss c) = length ss.
Proof. induction ss as [|[s ids] ss IH]; intro c; [reflexivity|]. cbn. now rewrite IH. Qed.
(** the calls behind a candidate of a problem found reachable all succeed *)
Lemma candidate_path : forall p reversed target ss cands q, poe_ok p -> steps_ok (length (exps p)) (problem_steps ss) -> in_order p (problem_steps ss) -> ss <> [] ->
  ik_solve p (map sub_step ss) reversed target = Some (true, cands) -> In q cands ->
  exists ks, length ks = length ss /\ derived p reversed target own_marks (problem_steps ss) ks q true.
Proof.
  intros p reversed target ss cands q POK OK IO NE SV I.
  assert (SV' : ik_solve p (map fst (problem_steps ss)) reversed target = Some (true, cands)) by (unfold problem_steps; rewrite map_map; exact SV).
  assert (NE' : problem_steps ss <> []) by (destruct ss; [congruence|discriminate]).
  destruct (solve_own p reversed target POK _ _ _ OK NE' IO SV') as (bs & FB & LB & DV).
  apply In_nth_error in I. destruct I as (c & I). specialize (DV c q I).
  assert (T : nth c bs true = true).
  { destruct (Nat.lt_ge_cases c (length bs)) as [C|C]; [|now apply nth_overflow]. symmetry in FB. rewrite forallb_forall in FB. apply FB. now apply nth_In. }
  rewrite T in DV. eexists. split; [|exact DV]. rewrite choices_length. unfold problem_steps. apply map_length.
Qed.
(** the candidate with given calls *)
Lemma path_candidate : forall p reversed target ss flag cands ks, poe_ok p -> steps_ok (length (exps p)) (problem_steps ss) -> in_order p (problem_steps ss) -> ss <> [] ->
  ik_solve p (map sub_step ss) reversed target = Some (flag, cands) ->
  Forall2 (fun (s : step * list nat) k => (k < st_count (fst s))%nat) (problem_steps ss) ks ->
  exists q ok, In q cands /\ derived p reversed target own_marks (problem_steps ss) ks q ok.
Proof.
  intros p reversed target ss flag cands ks POK OK IO NE SV FF.
  assert (SV' : ik_solve p (map fst (problem_steps ss)) reversed target = Some (flag, cands)) by (unfold problem_steps; rewrite map_map; exact SV).
  assert (NE' : problem_steps ss <> []) by (destruct ss; [congruence|discriminate]).
  destruct (solve_spec p reversed target POK _ _ _ OK NE' SV') as (LC & _).
  destruct (solve_own p reversed target POK _ _ _ OK NE' IO SV') as (bs & FB & LB & DV).
  destruct (choices_onto _ _ FF) as (c & L & EC). rewrite <- (computeSolutions_paths (problem_steps ss)), <- LC in L by exact NE'.
  destruct (nth_error cands c) as [q'|] eqn:N; [|apply nth_error_None in N; lia].
  specialize (DV c q' N). rewrite EC in DV. exists q'. eexists. split; [eapply nth_error_In; exact N|exact DV].
Qed.

Lemma rotary_eq : forall e, e_motion e = ROTATION -> e = E ROTATION (e_axis e) (e_origin e).
Proof. intros [m a o] H. cbn in *. now subst. Qed.
Lemma sliding_eq : forall e, e_motion e = TRANSLATION -> e = E TRANSLATION (e_axis e) (e_origin e).
Proof. intros [m a o] H. cbn in *. now subst. Qed.
Lemma axis_through : forall e v, e_motion e = ROTATION -> on_axis e v -> exists s, e = E ROTATION (e_axis e) (vadd v (vscale s (e_axis e))).
Proof.
  intros e v M (t & ->). exists (- t). rewrite (rotary_eq e M) at 1. f_equal. unfold point_on. destruct (e_origin e), (e_axis e); vlin.
Qed.
Lemma crossed : forall e e', unit (e_axis e) -> unit (e_axis e') -> cross (e_axis e) (e_axis e') <> vzero ->
  1 - dot (e_axis e) (e_axis e') * dot (e_axis e) (e_axis e') <> 0.
Proof. intros e e' U U' C Q. apply C, dot_self_zero. rewrite lagrange. unfold unit in *. rewrite U, U'. lra. Qed.

(** ** What each call guarantees *)
Lemma pk1_placed : forall id e v rhs h l k loc, unit (e_axis e) -> e_motion e = ROTATION ->
  pk1_solve id e v rhs h = Some (true, l) -> nth_error l k = Some loc ->
  exists th, loc = [(id, th)] /\ dist (move1 e th (fapp h v)) (fapp rhs v) <= 3 * kdl_eps + kdl_eps * dist (fapp h v) (e_origin e).
Proof.
  intros id e v rhs h l k loc U M SV N. rewrite (rotary_eq e M) in SV. destruct (pk1_sound _ _ _ _ _ _ _ U SV) as (th & -> & B).
  rewrite <- (rotary_eq e M) in B. destruct k as [|[|]]; cbn in N; try discriminate. exists th. split; [congruence|exact B].
Qed.
Lemma pk2_placed : forall id1 id2 e e' v c rhs h l k loc, unit (e_axis e) -> unit (e_axis e') -> e_motion e = ROTATION -> e_motion e' = ROTATION ->
  on_axis e c -> on_axis e' c -> cross (e_axis e) (e_axis e') <> vzero ->
  pk2_solve id1 id2 e e' v c rhs h = Some (true, l) -> nth_error l k = Some loc ->
  exists th th', loc = [(id1, th); (id2, th')] /\ dist (move1 e th (move1 e' th' (fapp h v))) (fapp rhs v) <= sqrt kdl_eps + kdl_eps * (2 + 2 * dist (fapp h v) c).
Proof.
  intros id1 id2 e e' v c rhs h l k loc U U' M M' O O' C SV N.
  destruct (axis_through e c M O) as (s & E1), (axis_through e' c M' O') as (s' & E2). rewrite E1, E2 in SV.
  destruct (pk2_flag_sound _ _ U U' (crossed _ _ U U' C) _ _ _ _ _ _ _ _ _ SV) as (h11 & h21 & h12 & h22 & -> & B1 & B2).
  rewrite <- E1, <- E2 in B1, B2. unfold move2 in B1, B2.
  destruct k as [|[|[|]]]; cbn in N; try discriminate; [exists h11, h21|exists h12, h22]; (split; [congruence|assumption]).
Qed.
Lemma pg4_placed : forall id1 id2 e e' v rhs h l k loc, unit (e_axis e) -> e_motion e = ROTATION -> e_motion e' = ROTATION ->
  parallel e e' -> kdl_eps <= away e (e_origin e') -> unfolded e e' (fapp h v) (fapp rhs v) -> dot (e_axis e) (vsub (fapp rhs v) (fapp h v)) = 0 ->
  pg4_solve id1 id2 e e' v rhs h = Some (true, l) -> nth_error l k = Some loc ->
  exists th th', loc = [(id1, th); (id2, th')] /\
    dist (move1 e th (move1 e' th' (fapp h v))) (fapp rhs v) <= pair_bound (away e' (fapp h v)) (away e (fapp rhs v)).
Proof.
  intros id1 id2 e e' v rhs h l k loc U M M' PA AP UF PL SV N.
  unfold unfolded in UF. rewrite (away_parallel e e' _ PA) in *. destruct (parallel_sign e e' PA) as (s & SS & A).
  rewrite (rotary_eq e M), (rotary_eq e' M') in SV.
  destruct (pg4_flag_sound _ _ _ _ _ _ _ s _ _ _ U SS A AP UF PL SV) as (h11 & h21 & h12 & h22 & -> & B1 & B2).
  rewrite <- (rotary_eq e M), <- (rotary_eq e' M') in B1, B2. unfold move2 in B1, B2.
  destruct k as [|[|[|]]]; cbn in N; try discriminate; [exists h11, h21|exists h12, h22]; (split; [congruence|assumption]).
Qed.
Lemma pk2_total : forall id1 id2 e e' v k rhs h, unit (e_axis e) -> unit (e_axis e') -> e_motion e = ROTATION -> e_motion e' = ROTATION ->
  on_axis e k -> on_axis e' k -> cross (e_axis e) (e_axis e') <> vzero -> pk2_solve id1 id2 e e' v k rhs h <> None.
Proof.
  intros id1 id2 e e' v k rhs h U U' M M' O O' C. destruct (axis_through e k M O) as (s & E1), (axis_through e' k M' O') as (s' & E2).
  rewrite E1, E2, pk2_unfold by (auto using crossed). match goal with |- (if ?c then _ else _) <> None => destruct c end; discriminate.
Qed.

(** ** From the parts to the pose *)
Lemma axis_stays : forall e z t, unit (e_axis e) -> e_motion e = ROTATION -> on_axis e z -> fapp (asFrame e t) z = z.
Proof. intros. now apply (axis_fixed e z t). Qed.
Lemma slides : forall e t z, e_motion e = TRANSLATION -> fapp (asFrame e t) z = vadd z (vscale t (e_axis e)).
Proof. intros e t z M. rewrite (sliding_eq e M). apply move_trans. Qed.
Lemma slides_back : forall e t z, e_motion e = TRANSLATION -> fapp (finv (asFrame e t)) z = vadd z (vscale (- t) (e_axis e)).
Proof.
  intros e t z M. transitivity (fapp (finv (asFrame e t)) (fapp (asFrame e t) (vadd z (vscale (- t) (e_axis e))))).
  - f_equal. rewrite slides by exact M. destruct z, (e_axis e); vlin.
  - apply fapp_inv_l. destruct e as [m a o]. cbn in M. subst m. apply rigid_trans.
Qed.
Lemma away_slide : forall e a z t, unit (e_axis e) -> (exists s, a = vscale s (e_axis e)) -> away e (vadd z (vscale t a)) = away e z.
Proof.
  intros e a z t U (s & ->). unfold away. f_equal.
  replace (vsub (vadd z (vscale t (vscale s (e_axis e)))) (e_origin e)) with (vadd (vsub z (e_origin e)) (vscale (t * s) (e_axis e))) by (destruct z, (e_origin e), (e_axis e); vlin).
  rewrite perp_add, perp_axis by exact U. vlin.
Qed.
Lemma before : forall A B g u, rigid A -> dist (fapp (fmul A B) u) (fapp g u) = dist (fapp B u) (fapp (fmul (finv A) g) u).
Proof.
  intros A B g u RA. rewrite !fapp_fmul. rewrite <- (dist_rigid A (fapp B u)) by exact RA. now rewrite fapp_inv_r by exact RA.
Qed.

Section Six.
Variables (e0 e1 e2 e3 e4 e5 : mexp) (T : frame) (w x y : vec) (reversed : bool) (target : frame).
Let p := P [e0; e1; e2; e3; e4; e5] T.
Let G := goal p reversed target.
Hypothesis POK : poe_ok p.
Hypothesis WP : wrist_part e3 e4 e5 w x y.

Lemma six_unit : forall e, In e (exps p) -> unit (e_axis e).
Proof. intros e I. destruct POK as [UU _]. rewrite Forall_forall in UU. auto. Qed.
Lemma six_rigid : forall e t, In e (exps p) -> rigid (asFrame e t).
Proof. intros. apply asFrame_rigid, six_unit. assumption. Qed.

(** the last two calls place [x] and [y] *)
Lemma six_placed : forall t0 t1 t2 t3 t4 t5 d0 f, rigid target ->
  let D0 := asFrame e0 t0 in let D1 := asFrame e1 t1 in let D2 := asFrame e2 t2 in
  let D3 := asFrame e3 t3 in let D4 := asFrame e4 t4 in let D5 := asFrame e5 t5 in
  let A := fmul D0 (fmul D1 D2) in let B := fmul A (fmul D3 D4) in
  dist (fapp A w) (fapp G w) <= d0 ->
  dist (move1 e3 t3 (move1 e4 t4 x)) (fapp (fmul (finv A) G) x) <= wrist_x w x ->
  dist (move1 e5 t5 y) (fapp (fmul (finv B) G) y) <= wrist_y e5 y ->
  f = fmul (fmul B D5) T ->
  rigid f /\ placed (carried p f) (carried p (if reversed then finv target else target)) w x y d0 (wrist_x w x) (wrist_y e5 y).
Proof.
  intros t0 t1 t2 t3 t4 t5 d0 f RT D0 D1 D2 D3 D4 D5 A B H0 H1 H2 ->.
  destruct WP as (M3 & M4 & M5 & W3 & W4 & W5 & X5 & C34 & N4 & N5). destruct POK as [UU RTo]. cbn [tool p] in RTo.
  assert (I3 : In e3 (exps p)) by (cbn; auto 10). assert (I4 : In e4 (exps p)) by (cbn; auto 10). assert (I5 : In e5 (exps p)) by (cbn; auto 10).
  assert (RA : rigid A) by (repeat apply rigid_mul; apply six_rigid; cbn; auto 10).
  assert (RB : rigid B) by (repeat apply rigid_mul; try exact RA; apply six_rigid; cbn; auto 10).
  assert (RC : rigid (fmul B D5)) by (apply rigid_mul; [exact RB|apply six_rigid; exact I5]).
  split; [apply rigid_mul; [exact RC|exact RTo]|].
  assert (CA : forall v, carried p (fmul (fmul B D5) T) v = fapp (fmul B D5) v) by (intro v; unfold carried; cbn [tool p]; rewrite fapp_fmul, fapp_inv_r by exact RTo; reflexivity).
  assert (CG : forall v, carried p (if reversed then finv target else target) v = fapp G v) by (intro v; unfold carried, G, goal; now rewrite fapp_fmul).
  intros a b c z. rewrite CA, CG. apply pose_bound; auto.
  - unfold G, goal. apply rigid_mul; [destruct reversed; [apply rigid_inv; exact RT|exact RT]|apply rigid_inv; exact RTo].
  - unfold B. rewrite !fapp_fmul. unfold D3, D4, D5. rewrite (axis_stays e5 w), (axis_stays e4 w), (axis_stays e3 w) by (auto using six_unit). exact H0.
  - unfold B. rewrite (fmul_assoc A), before by exact RA. rewrite !fapp_fmul. unfold D5. rewrite (axis_stays e5 x) by (auto using six_unit). rewrite fapp_fmul in H1. exact H1.
  - rewrite before by exact RB. exact H2.
Qed.
Lemma six_evaluate : forall q t0 t1 t2 t3 t4 t5, length q = 6%nat ->
  displ p reversed q 0 = asFrame e0 t0 -> displ p reversed q 1 = asFrame e1 t1 -> displ p reversed q 2 = asFrame e2 t2 ->
  displ p reversed q 3 = asFrame e3 t3 -> displ p reversed q 4 = asFrame e4 t4 -> displ p reversed q 5 = asFrame e5 t5 ->
  evaluate p (if reversed then rev_neg q else q) =
    Some (fmul (fmul (fmul (fmul (asFrame e0 t0) (fmul (asFrame e1 t1) (asFrame e2 t2))) (fmul (asFrame e3 t3) (asFrame e4 t4))) (asFrame e5 t5)) T).
Proof.
  intros q t0 t1 t2 t3 t4 t5 L E0 E1 E2 E3 E4 E5. rewrite (evaluate_product p reversed q L). f_equal. change (tool p) with T. f_equal.
  change (length (exps p)) with 6%nat. cbn [product seq fold_right]. rewrite E0, E1, E2, E3, E4, E5, fmul_id_r. now rewrite !fmul_assoc.
Qed.
End Six.

Ltac located := unfold displ, assign, slot; cbn [exps length fst snd fold_left]; match goal with |- context [if ?r then _ else _] => destruct r end; cbn; f_equal; ring.

Section SlidingSound.
Variables (e0 e1 e2 e3 e4 e5 : mexp) (T : frame) (r w x y : vec) (reversed : bool) (target : frame).
Let p := P [e0; e1; e2; e3; e4; e5] T.
Hypothesis POK : poe_ok p.
Hypothesis SA : sliding_arm (exps p) r w x y.
Let ss := sliding_steps (exps p) r w x y.

Lemma sliding_steps_ok : steps_ok 6 (problem_steps ss).
Proof.
  split; [|split].
  - intros s ids [E|[E|[E|[E|[]]]]]; injection E as <- <-; [apply pg3_ok|apply pk2_ok|apply pk2_ok|apply pk1_ok].
  - cbn. repeat constructor; cbn; lia.
  - cbn. lia.
Qed.
Lemma sliding_in_order : in_order p (problem_steps ss).
Proof.
  intros ss0 s ids ss1 E. destruct ss0 as [|? [|? [|? [|? ss0]]]].
  - left. reflexivity.
  - right. intros a FA. cbn in E. injection E; intros; subst. cbn in FA. fu FA 0%nat. cbn. lia.
  - right. intros a FA. cbn in E. injection E; intros; subst. cbn in FA. fu FA 3%nat. cbn. lia.
  - right. intros a FA. cbn in E. injection E; intros; subst. cbn in FA. fu FA 5%nat. cbn. lia.
  - cbn in E. injection E; intros. destruct ss0; discriminate.
Qed.
Lemma sliding_defined : exists flag cands, ik_solve p (map sub_step ss) reversed target = Some (flag, cands).
Proof.
  cbn in SA. destruct SA as (M0 & M1 & M2 & R0 & R1 & C01 & M3 & M4 & M5 & W3 & W4 & W5 & X5 & C34 & N4 & N5).
  pose proof (six_unit e0 e1 e2 e3 e4 e5 T POK) as UE.
  assert (E : map sub_step ss = map fst (problem_steps ss)) by (unfold problem_steps; now rewrite map_map). rewrite E.
  apply (solve_total_first p reversed target (pg3_step 2 e2 w r) [2%nat] (problem_steps [SPK2 0 1 e0 e1 w r; SPK2 3 4 e3 e4 x w; SPK1 5 e5 y]) POK).
  - exact sliding_steps_ok.
  - intro rhs. cbn [st_solve pg3_step]. unfold pg3_solve. match goal with |- (if ?c then _ else _) <> None => destruct c end; discriminate.
  - intros s' ids' rhs h [Q|[Q|[Q|[]]]]; injection Q as <- <-; cbn [st_solve sub_step pk2_step pk1_step].
    + apply pk2_total; auto; apply UE; cbn; auto 10.
    + apply pk2_total; auto; apply UE; cbn; auto 10.
    + unfold pk1_solve. discriminate.
Qed.
Lemma sliding_sound : forall cands q, rigid target ->
  ik_solve p (map sub_step ss) reversed target = Some (true, cands) -> In q cands ->
  exists f, evaluate p (if reversed then rev_neg q else q) = Some f /\ rigid f /\
    sliding_placed (exps p) r w x y (nth 2 (if reversed then rev_neg q else q) 0) (carried p f) (carried p (if reversed then finv target else target)).
Proof.
  intros cands q RT SV I.
  destruct (candidate_path p reversed target ss cands q POK sliding_steps_ok sliding_in_order ltac:(discriminate) SV I) as (ks & LK & DV).
  destruct ks as [|k0 [|k1 [|k2 [|k3 [|]]]]]; try discriminate. apply sliding_path in DV. cbv zeta in DV. fold p in DV.
  destruct DV as (f0 & l0 & loc0 & f1 & l1 & loc1 & f2 & l2 & loc2 & f3 & l3 & loc3 & V0 & L0 & V1 & L1 & V2 & L2 & V3 & L3 & EQ & FL).
  symmetry in FL. rewrite !andb_true_iff in FL. destruct FL as [[[-> ->] ->] ->].
  pose proof SA as SA'. cbn in SA'. destruct SA' as (M0 & M1 & M2 & R0 & R1 & C01 & WP). pose proof WP as WP'. destruct WP' as (M3 & M4 & M5 & W3 & W4 & W5 & X5 & C34 & N4 & N5).
  pose proof (six_unit e0 e1 e2 e3 e4 e5 T POK) as UE. fold p in UE.
  assert (Q0 : exists th2, loc0 = [(2%nat, th2)]).
  { destruct (pg3_ok 2 e2 w r) as (_ & _ & CT). destruct (CT _ fid _ _ V0) as [_ LI]. specialize (LI loc0 (nth_error_In _ _ L0)).
    destruct loc0 as [|[i t] [|]]; try discriminate. cbn in LI. injection LI as ->. eauto. }
  destruct Q0 as (th2 & ->).
  destruct (pk2_placed _ _ _ _ _ _ _ _ _ _ _ (UE e0 ltac:(cbn; auto)) (UE e1 ltac:(cbn; auto)) M0 M1 R0 R1 C01 V1 L1) as (th0 & th1 & -> & B0).
  destruct (pk2_placed _ _ _ _ _ _ _ _ _ _ _ (UE e3 ltac:(cbn; auto 10)) (UE e4 ltac:(cbn; auto 10)) M3 M4 W3 W4 C34 V2 L2) as (th3 & th4 & -> & B1).
  destruct (pk1_placed _ _ _ _ _ _ _ _ (UE e5 ltac:(cbn; auto 10)) M5 V3 L3) as (th5 & -> & B2).
  clear V0 V1 V2 V3 L0 L1 L2 L3.
  set (q1 := assign p reversed [(2%nat, th2)] (repeat 0 6)) in *. set (q2 := assign p reversed [(0%nat, th0); (1%nat, th1)] q1) in *.
  set (q3 := assign p reversed [(3%nat, th3); (4%nat, th4)] q2) in *.
  assert (E12 : displ p reversed q1 2 = asFrame e2 th2) by (unfold q1; located).
  assert (E20 : displ p reversed q2 0 = asFrame e0 th0) by (unfold q2, q1; located).
  assert (E21 : displ p reversed q2 1 = asFrame e1 th1) by (unfold q2, q1; located).
  assert (E22 : displ p reversed q2 2 = asFrame e2 th2) by (unfold q2, q1; located).
  assert (E30 : displ p reversed q3 0 = asFrame e0 th0) by (unfold q3, q2, q1; located).
  assert (E31 : displ p reversed q3 1 = asFrame e1 th1) by (unfold q3, q2, q1; located).
  assert (E32 : displ p reversed q3 2 = asFrame e2 th2) by (unfold q3, q2, q1; located).
  assert (E33 : displ p reversed q3 3 = asFrame e3 th3) by (unfold q3, q2, q1; located).
  assert (E34 : displ p reversed q3 4 = asFrame e4 th4) by (unfold q3, q2, q1; located).
  assert (LQ : length q = 6%nat) by (rewrite EQ; unfold q3, q2, q1; rewrite !assign_length; reflexivity).
  assert (N2 : nth 2 (if reversed then rev_neg q else q) 0 = th2).
  { rewrite EQ. unfold q3, q2, q1, assign, slot. clear. destruct reversed; cbn; ring. }
  assert (F0 : displ p reversed q 0 = asFrame e0 th0) by (rewrite EQ; unfold q3, q2, q1; located).
  assert (F1 : displ p reversed q 1 = asFrame e1 th1) by (rewrite EQ; unfold q3, q2, q1; located).
  assert (F2 : displ p reversed q 2 = asFrame e2 th2) by (rewrite EQ; unfold q3, q2, q1; located).
  assert (F3 : displ p reversed q 3 = asFrame e3 th3) by (rewrite EQ; unfold q3, q2, q1; located).
  assert (F4 : displ p reversed q 4 = asFrame e4 th4) by (rewrite EQ; unfold q3, q2, q1; located).
  assert (F5 : displ p reversed q 5 = asFrame e5 th5) by (rewrite EQ; unfold q3, q2, q1; located).
  pose proof (six_evaluate e0 e1 e2 e3 e4 e5 T reversed q th0 th1 th2 th3 th4 th5 LQ F0 F1 F2 F3 F4 F5) as EV. fold p in EV.
  eexists. split; [exact EV|].
  rewrite N2. cbn [sliding_placed exps p].
  apply (six_placed e0 e1 e2 e3 e4 e5 T w x y reversed target POK WP th0 th1 th2 th3 th4 th5); [exact RT| | | |reflexivity]; fold p.
  - rewrite E12 in B0. rewrite (fapp_fmul (asFrame e0 th0)), (fapp_fmul (asFrame e1 th1)). unfold move1 in B0. eapply Rle_trans; [exact B0|]. apply Rplus_le_compat_l. apply Rmult_le_compat_l; [pose proof kdl_eps_pos; lra|].
    apply Rplus_le_compat_l, Rmult_le_compat_l; [lra|]. rewrite slides by exact M2. unfold dist.
    replace (vsub (vadd w (vscale th2 (e_axis e2))) r) with (vadd (vsub w r) (vscale th2 (e_axis e2))) by (destruct w, r, (e_axis e2); vlin).
    eapply Rle_trans; [apply norm_triangle|]. rewrite norm_scale, (unit_norm (e_axis e2)) by (apply UE; cbn; auto). lra.
  - rewrite fapp_id in B1. cbn [product seq fold_right] in B1. rewrite E20, E21, E22, fmul_id_r in B1. exact B1.
  - rewrite fapp_id in B2. cbn [product seq fold_right] in B2. rewrite E30, E31, E32, E33, E34, fmul_id_r in B2.
    replace (fmul (fmul (asFrame e0 th0) (fmul (asFrame e1 th1) (asFrame e2 th2))) (fmul (asFrame e3 th3) (asFrame e4 th4)))
      with (fmul (asFrame e0 th0) (fmul (asFrame e1 th1) (fmul (asFrame e2 th2) (fmul (asFrame e3 th3) (asFrame e4 th4))))) by (now rewrite !fmul_assoc).
    exact B2.
Qed.
End SlidingSound.

(** a slide along the axis of two parallel rotations brings a point to the height of its goal *)
Lemma level : forall a a' s u v, unit a -> s * s = 1 -> a' = vscale s a -> dot a (vsub (vadd u (vscale (- dot a' (vsub u v)) a')) v) = 0.
Proof.
  intros a a' s u v U SS ->. rewrite dot_sub_r, dot_add_r, !dot_scale_r, dot_scale_l, U. rewrite !dot_sub_r.
  replace (- (s * (dot a u - dot a v)) * (s * 1)) with (- (s * s) * (dot a u - dot a v)) by ring. rewrite SS. ring.
Qed.

Section LinearSound.
Variables (e0 e1 e2 e3 e4 e5 : mexp) (T : frame) (w x y : vec) (reversed : bool) (target : frame).
Let p := P [e0; e1; e2; e3; e4; e5] T.
Hypothesis POK : poe_ok p.
Hypothesis SA : linear_arm (exps p) w x y.
Let ss := linear_steps (exps p) w x y.

Lemma linear_steps_ok : steps_ok 6 (problem_steps ss).
Proof.
  split; [|split].
  - intros s ids [E|[E|[E|[E|[]]]]]; injection E as <- <-; [apply pg1_ok|apply pg4_ok|apply pk2_ok|apply pk1_ok].
  - cbn. repeat constructor; cbn; lia.
  - cbn. lia.
Qed.
Lemma linear_in_order : in_order p (problem_steps ss).
Proof.
  intros ss0 s ids ss1 E. destruct ss0 as [|? [|? [|? [|? ss0]]]].
  - left. reflexivity.
  - right. intros a FA. cbn in E. injection E; intros; subst. cbn in FA. fu FA 1%nat. cbn. lia.
  - right. intros a FA. cbn in E. injection E; intros; subst. cbn in FA. fu FA 3%nat. cbn. lia.
  - right. intros a FA. cbn in E. injection E; intros; subst. cbn in FA. fu FA 5%nat. cbn. lia.
  - cbn in E. injection E; intros. destruct ss0; discriminate.
Qed.
Lemma linear_defined : exists flag cands, ik_solve p (map sub_step ss) reversed target = Some (flag, cands).
Proof.
  cbn in SA. destruct SA as (M0 & M1 & M2 & P0 & P2 & AP & M3 & M4 & M5 & W3 & W4 & W5 & X5 & C34 & N4 & N5).
  pose proof (six_unit e0 e1 e2 e3 e4 e5 T POK) as UE.
  assert (E : map sub_step ss = map fst (problem_steps ss)) by (unfold problem_steps; now rewrite map_map). rewrite E.
  apply (solve_total_first p reversed target (pg1_step 0 e0 w) [0%nat] (problem_steps [SPG4 1 2 e1 e2 w; SPK2 3 4 e3 e4 x w; SPK1 5 e5 y]) POK).
  - exact linear_steps_ok.
  - intro rhs. discriminate.
  - intros s' ids' rhs h [Q|[Q|[Q|[]]]]; injection Q as <- <-; cbn [st_solve sub_step pk2_step pk1_step pg4_step].
    + apply pg4_defined; auto; apply UE; cbn; auto 10.
    + apply pk2_total; auto; apply UE; cbn; auto 10.
    + unfold pk1_solve. discriminate.
Qed.
Lemma linear_sound : forall cands q, rigid target ->
  let g := if reversed then finv target else target in
  pair_unfolded (exps p) w (carried p g w) ->
  ik_solve p (map sub_step ss) reversed target = Some (true, cands) -> In q cands ->
  exists f, evaluate p (if reversed then rev_neg q else q) = Some f /\ rigid f /\
    linear_placed (exps p) w x y (carried p g w) (carried p f) (carried p g).
Proof.
  intros cands q RT g UF SV I.
  destruct (candidate_path p reversed target ss cands q POK linear_steps_ok linear_in_order ltac:(discriminate) SV I) as (ks & LK & DV).
  destruct ks as [|k0 [|k1 [|k2 [|k3 [|]]]]]; try discriminate. apply linear_path in DV. cbv zeta in DV. fold p in DV.
  destruct DV as (f0 & l0 & loc0 & f1 & l1 & loc1 & f2 & l2 & loc2 & f3 & l3 & loc3 & V0 & L0 & V1 & L1 & V2 & L2 & V3 & L3 & EQ & FL).
  symmetry in FL. rewrite !andb_true_iff in FL. destruct FL as [[[-> ->] ->] ->].
  pose proof SA as SA'. cbn in SA'. destruct SA' as (M0 & M1 & M2 & PA0 & PA2 & AP & WP). pose proof WP as WP'. destruct WP' as (M3 & M4 & M5 & W3 & W4 & W5 & X5 & C34 & N4 & N5).
  pose proof (six_unit e0 e1 e2 e3 e4 e5 T POK) as UE. fold p in UE.
  assert (U1 : unit (e_axis e1)) by (apply UE; cbn; auto).
  assert (CG : carried p g w = fapp (goal p reversed target) w) by (unfold carried, goal; now rewrite fapp_fmul).
  rewrite CG in *. cbn [pair_unfolded exps p] in UF. set (G := goal p reversed target) in *.
  assert (Q0 : loc0 = [(0%nat, dot (e_axis e0) (vsub (fapp G w) w))]).
  { unfold pg1_solve in V0. rewrite fapp_id in V0. assert (l0 = [[(0%nat, dot (e_axis e0) (vsub (fapp G w) w))]]) as -> by congruence.
    destruct k0 as [|[|]]; cbn in L0; congruence. }
  set (th0 := dot (e_axis e0) (vsub (fapp G w) w)) in *. rewrite Q0 in *. clear Q0 V0 L0.
  set (q1 := assign p reversed [(0%nat, th0)] (repeat 0 6)) in *.
  assert (E10 : displ p reversed q1 0 = asFrame e0 th0) by (unfold q1; clearbody th0; located).
  destruct (parallel_sign _ _ PA0) as (s & SS & A0).
  assert (K : fapp (fmul (finv (product p reversed q1 0 1)) G) w = vadd (fapp G w) (vscale (- th0) (e_axis e0))).
  { cbn [product seq fold_right]. rewrite E10, fmul_id_r, fapp_fmul. apply slides_back. exact M0. }
  assert (AW : away e1 (vadd (fapp G w) (vscale (- th0) (e_axis e0))) = away e1 (fapp G w)) by (apply away_slide; [exact U1|exists s; exact A0]).
  set (rhs := fmul (finv (product p reversed q1 0 1)) G) in *.
  assert (UF' : unfolded e1 e2 (fapp fid w) (fapp rhs w)) by (rewrite K, fapp_id; unfold unfolded in *; rewrite AW; exact UF).
  assert (PL : dot (e_axis e1) (vsub (fapp rhs w) (fapp fid w)) = 0) by (rewrite K, fapp_id; apply (level _ _ s); assumption).
  destruct (pg4_placed _ _ _ _ _ _ _ _ _ _ U1 M1 M2 PA2 AP UF' PL V1 L1) as (th1 & th2 & -> & B0). rewrite K, AW, fapp_id in B0.
  destruct (pk2_placed _ _ _ _ _ _ _ _ _ _ _ (UE e3 ltac:(cbn; auto 10)) (UE e4 ltac:(cbn; auto 10)) M3 M4 W3 W4 C34 V2 L2) as (th3 & th4 & -> & B1).
  destruct (pk1_placed _ _ _ _ _ _ _ _ (UE e5 ltac:(cbn; auto 10)) M5 V3 L3) as (th5 & -> & B2).
  clear V1 V2 V3 L1 L2 L3 UF' PL K rhs. assert (K : fapp (finv (asFrame e0 th0)) (fapp G w) = vadd (fapp G w) (vscale (- th0) (e_axis e0))) by (apply slides_back; exact M0).
  rewrite <- K in B0. clear K AW. clearbody th0.
  set (q2 := assign p reversed [(1%nat, th1); (2%nat, th2)] q1) in *.
  set (q3 := assign p reversed [(3%nat, th3); (4%nat, th4)] q2) in *.
  assert (E20 : displ p reversed q2 0 = asFrame e0 th0) by (unfold q2, q1; located).
  assert (E21 : displ p reversed q2 1 = asFrame e1 th1) by (unfold q2, q1; located).
  assert (E22 : displ p reversed q2 2 = asFrame e2 th2) by (unfold q2, q1; located).
  assert (E30 : displ p reversed q3 0 = asFrame e0 th0) by (unfold q3, q2, q1; located).
  assert (E31 : displ p reversed q3 1 = asFrame e1 th1) by (unfold q3, q2, q1; located).
  assert (E32 : displ p reversed q3 2 = asFrame e2 th2) by (unfold q3, q2, q1; located).
  assert (E33 : displ p reversed q3 3 = asFrame e3 th3) by (unfold q3, q2, q1; located).
  assert (E34 : displ p reversed q3 4 = asFrame e4 th4) by (unfold q3, q2, q1; located).
  assert (LQ : length q = 6%nat) by (rewrite EQ; unfold q3, q2, q1; rewrite !assign_length; reflexivity).
  assert (F0 : displ p reversed q 0 = asFrame e0 th0) by (rewrite EQ; unfold q3, q2, q1; located).
  assert (F1 : displ p reversed q 1 = asFrame e1 th1) by (rewrite EQ; unfold q3, q2, q1; located).
  assert (F2 : displ p reversed q 2 = asFrame e2 th2) by (rewrite EQ; unfold q3, q2, q1; located).
  assert (F3 : displ p reversed q 3 = asFrame e3 th3) by (rewrite EQ; unfold q3, q2, q1; located).
  assert (F4 : displ p reversed q 4 = asFrame e4 th4) by (rewrite EQ; unfold q3, q2, q1; located).
  assert (F5 : displ p reversed q 5 = asFrame e5 th5) by (rewrite EQ; unfold q3, q2, q1; located).
  pose proof (six_evaluate e0 e1 e2 e3 e4 e5 T reversed q th0 th1 th2 th3 th4 th5 LQ F0 F1 F2 F3 F4 F5) as EV. fold p in EV.
  eexists. split; [exact EV|].
  cbn [linear_placed exps p].
  apply (six_placed e0 e1 e2 e3 e4 e5 T w x y reversed target POK WP th0 th1 th2 th3 th4 th5); [exact RT| | | |reflexivity]; fold p; fold G.
  - rewrite before by (apply asFrame_rigid, UE; cbn; auto). rewrite !(fapp_fmul _ _ w). exact B0.
  - rewrite fapp_id in B1. cbn [product seq fold_right] in B1. rewrite E20, E21, E22, fmul_id_r in B1. exact B1.
  - rewrite fapp_id in B2. cbn [product seq fold_right] in B2. rewrite E30, E31, E32, E33, E34, fmul_id_r in B2.
    replace (fmul (fmul (asFrame e0 th0) (fmul (asFrame e1 th1) (asFrame e2 th2))) (fmul (asFrame e3 th3) (asFrame e4 th4)))
      with (fmul (asFrame e0 th0) (fmul (asFrame e1 th1) (fmul (asFrame e2 th2) (fmul (asFrame e3 th3) (asFrame e4 th4))))) by (now rewrite !fmul_assoc).
    exact B2.
Qed.
End LinearSound.

Lemma axis_kept : forall e e' t, unit (e_axis e) -> parallel e e' -> mv (fM (asFrame e' t)) (e_axis e) = e_axis e.
Proof.
  intros e [m a' o'] t U PA. destruct (parallel_sign _ _ PA) as (s & SS & A). cbn [e_axis] in A. destruct m.
  - assert (U' : unit a') by (unfold unit; rewrite A, dot_scale_l, dot_scale_r, U; lra).
    assert (EA : e_axis e = vscale s a') by (rewrite A; destruct (e_axis e); apply vec_eq; cbn; rewrite <- Rmult_assoc, SS; ring).
    rewrite EA, mv_scale. f_equal.
    transitivity (vsub (fapp (asFrame (E ROTATION a' o') t) (vadd o' a')) (fapp (asFrame (E ROTATION a' o') t) o')).
    + rewrite fapp_sub. f_equal. destruct o', a'; vlin.
    + rewrite (axis_stays (E ROTATION a' o') (vadd o' a')), (axis_stays (E ROTATION a' o') o'); try reflexivity; try exact U'.
      * destruct o', a'; vlin.
      * exists 0. cbn. destruct o', a'; apply vec_eq; cbn; ring.
      * exists 1. cbn. destruct o', a'; apply vec_eq; cbn; ring.
  - apply mv_id.
Qed.
Lemma shifted : forall f u v, fapp f (vadd u v) = vadd (fapp f u) (mv (fM f) v).
Proof. intros. unfold fapp. rewrite mv_add. generalize (mv (fM f) u), (mv (fM f) v), (fp f). intros. vlin. Qed.

Section ScaraSound.
Variables (e0 e1 e2 e3 : mexp) (T : frame) (w y : vec) (reversed : bool) (target : frame).
Let p := P [e0; e1; e2; e3] T.
Hypothesis POK : poe_ok p.
Hypothesis SA : scara_arm (exps p) w y.
Let ss := scara_steps (exps p) w y.

Lemma scara_unit : forall e, In e (exps p) -> unit (e_axis e).
Proof. intros e I. destruct POK as [UU _]. rewrite Forall_forall in UU. auto. Qed.
Lemma scara_steps_ok : steps_ok 4 (problem_steps ss).
Proof.
  split; [|split].
  - intros s ids [E|[E|[E|[]]]]; injection E as <- <-; [apply pg1_ok|apply pg4_ok|apply pk1_ok].
  - cbn. repeat constructor; cbn; lia.
  - cbn. lia.
Qed.
Lemma scara_in_order : in_order p (problem_steps ss).
Proof.
  intros ss0 s ids ss1 E. destruct ss0 as [|? [|? [|? ss0]]].
  - left. reflexivity.
  - right. intros a FA. cbn in E. injection E; intros; subst. cbn in FA. fu FA 0%nat. cbn. lia.
  - right. intros a FA. cbn in E. injection E; intros; subst. cbn in FA. fu FA 3%nat. cbn. lia.
  - cbn in E. injection E; intros. destruct ss0; discriminate.
Qed.
Lemma scara_defined : exists flag cands, ik_solve p (map sub_step ss) reversed target = Some (flag, cands).
Proof.
  cbn in SA. destruct SA as (M0 & M1 & M2 & M3 & P1 & P2 & P3 & AP & W3 & N3).
  assert (E : map sub_step ss = map fst (problem_steps ss)) by (unfold problem_steps; now rewrite map_map). rewrite E.
  apply (solve_total_first p reversed target (pg1_step 2 e2 w) [2%nat] (problem_steps [SPG4 0 1 e0 e1 w; SPK1 3 e3 y]) POK).
  - exact scara_steps_ok.
  - intro rhs. discriminate.
  - intros s' ids' rhs h [Q|[Q|[]]]; injection Q as <- <-; cbn [st_solve sub_step pk2_step pk1_step pg4_step].
    + apply pg4_defined; auto; apply scara_unit; cbn; auto 10.
    + unfold pk1_solve. discriminate.
Qed.
Lemma scara_evaluate : forall q t0 t1 t2 t3, length q = 4%nat ->
  displ p reversed q 0 = asFrame e0 t0 -> displ p reversed q 1 = asFrame e1 t1 -> displ p reversed q 2 = asFrame e2 t2 -> displ p reversed q 3 = asFrame e3 t3 ->
  evaluate p (if reversed then rev_neg q else q) = Some (fmul (fmul (fmul (asFrame e0 t0) (fmul (asFrame e1 t1) (asFrame e2 t2))) (asFrame e3 t3)) T).
Proof.
  intros q t0 t1 t2 t3 L E0 E1 E2 E3. rewrite (evaluate_product p reversed q L). f_equal. change (tool p) with T. f_equal.
  change (length (exps p)) with 4%nat. cbn [product seq fold_right]. rewrite E0, E1, E2, E3, fmul_id_r. now rewrite !fmul_assoc.
Qed.
Lemma scara_sound : forall cands q, rigid target ->
  let g := if reversed then finv target else target in
  pair_unfolded (exps p) w (carried p g w) -> upright (exps p) (fmul g (finv (tool p))) ->
  ik_solve p (map sub_step ss) reversed target = Some (true, cands) -> In q cands ->
  exists f, evaluate p (if reversed then rev_neg q else q) = Some f /\ rigid f /\
    scara_placed (exps p) w y (carried p g w) (carried p f) (carried p g).
Proof.
  intros cands q RT g UF UP SV I.
  destruct (candidate_path p reversed target ss cands q POK scara_steps_ok scara_in_order ltac:(discriminate) SV I) as (ks & LK & DV).
  destruct ks as [|k0 [|k1 [|k2 [|]]]]; try discriminate. apply scara_path in DV. cbv zeta in DV. fold p in DV.
  destruct DV as (f0 & l0 & loc0 & f1 & l1 & loc1 & f2 & l2 & loc2 & V0 & L0 & V1 & L1 & V2 & L2 & EQ & FL).
  symmetry in FL. rewrite !andb_true_iff in FL. destruct FL as [[-> ->] ->].
  pose proof SA as SA'. cbn in SA'. destruct SA' as (M0 & M1 & M2 & M3 & PA1 & PA2 & PA3 & AP & W3 & N3).
  pose proof scara_unit as UE.
  assert (U0 : unit (e_axis e0)) by (apply UE; cbn; auto). assert (U1 : unit (e_axis e1)) by (apply UE; cbn; auto).
  assert (CG : forall v, carried p g v = fapp (goal p reversed target) v) by (intro v; unfold carried, goal; now rewrite fapp_fmul).
  rewrite CG in *. cbn [pair_unfolded exps p] in UF. cbn [upright exps p tool] in UP.
  change (fmul g (finv T)) with (goal p reversed target) in UP. set (G := goal p reversed target) in *.
  assert (Q0 : loc0 = [(2%nat, dot (e_axis e2) (vsub (fapp G w) w))]).
  { unfold pg1_solve in V0. rewrite fapp_id in V0. assert (l0 = [[(2%nat, dot (e_axis e2) (vsub (fapp G w) w))]]) as -> by congruence.
    destruct k0 as [|[|]]; cbn in L0; congruence. }
  set (th2 := dot (e_axis e2) (vsub (fapp G w) w)) in *. rewrite Q0 in *. clear Q0 V0 L0.
  set (q1 := assign p reversed [(2%nat, th2)] (repeat 0 4)) in *.
  assert (E12 : displ p reversed q1 2 = asFrame e2 th2) by (unfold q1; clearbody th2; located).
  destruct (parallel_sign _ _ PA1) as (s1 & SS1 & A1). destruct (parallel_sign _ _ PA2) as (s2 & SS2 & A2).
  assert (K : fapp (displ p reversed q1 2) w = vadd w (vscale th2 (e_axis e2))) by (rewrite E12; apply slides; exact M2).
  assert (AW : away e1 (vadd w (vscale th2 (e_axis e2))) = away e1 w).
  { apply away_slide; [exact U1|]. exists (s2 * s1). rewrite A2, A1. destruct (e_axis e0); apply vec_eq; cbn; rewrite <- !Rmult_assoc, (Rmult_assoc s2), SS1; ring. }
  set (h := displ p reversed q1 2) in *.
  assert (UF' : unfolded e0 e1 (fapp h w) (fapp G w)) by (rewrite K; unfold unfolded in *; rewrite AW; exact UF).
  assert (PL : dot (e_axis e0) (vsub (fapp G w) (fapp h w)) = 0).
  { rewrite K. pose proof (level _ _ s2 (fapp G w) w U0 SS2 A2) as LV. fold th2 in LV.
    replace (vsub (fapp G w) (vadd w (vscale th2 (e_axis e2)))) with (vsub (vadd (fapp G w) (vscale (- th2) (e_axis e2))) w); [exact LV|].
    generalize th2, (fapp G w). intros. destruct w, (e_axis e2); vlin. }
  destruct (pg4_placed _ _ _ _ _ _ _ _ _ _ U0 M0 M1 PA1 AP UF' PL V1 L1) as (th0 & th1 & -> & B0). rewrite K, AW, <- K in B0. rewrite E12 in B0.
  destruct (pk1_placed _ _ _ _ _ _ _ _ (UE e3 ltac:(cbn; auto 10)) M3 V2 L2) as (th3 & -> & B2).
  clear V1 V2 L1 L2 UF' PL K E12 AW h. clearbody th2.
  set (q2 := assign p reversed [(0%nat, th0); (1%nat, th1)] q1) in *.
  assert (E20 : displ p reversed q2 0 = asFrame e0 th0) by (unfold q2, q1; located).
  assert (E21 : displ p reversed q2 1 = asFrame e1 th1) by (unfold q2, q1; located).
  assert (E22 : displ p reversed q2 2 = asFrame e2 th2) by (unfold q2, q1; located).
  assert (LQ : length q = 4%nat) by (rewrite EQ; unfold q2, q1; rewrite !assign_length; reflexivity).
  assert (F0 : displ p reversed q 0 = asFrame e0 th0) by (rewrite EQ; unfold q2, q1; located).
  assert (F1 : displ p reversed q 1 = asFrame e1 th1) by (rewrite EQ; unfold q2, q1; located).
  assert (F2 : displ p reversed q 2 = asFrame e2 th2) by (rewrite EQ; unfold q2, q1; located).
  assert (F3 : displ p reversed q 3 = asFrame e3 th3) by (rewrite EQ; unfold q2, q1; located).
  pose proof (scara_evaluate q th0 th1 th2 th3 LQ F0 F1 F2 F3) as EV.
  eexists. split; [exact EV|].
  destruct POK as [_ RTo]. cbn [tool p] in RTo.
  set (A := fmul (asFrame e0 th0) (fmul (asFrame e1 th1) (asFrame e2 th2))) in *. set (D3 := asFrame e3 th3) in *.
  assert (RD : forall e t, In e (exps p) -> rigid (asFrame e t)) by (intros; apply asFrame_rigid, UE; assumption).
  assert (RA : rigid A) by (repeat apply rigid_mul; apply RD; cbn; auto).
  assert (RB : rigid (fmul A D3)) by (apply rigid_mul; [exact RA|apply RD; cbn; auto]).
  split; [apply rigid_mul; assumption|]. cbn [scara_placed exps p]. cbv zeta.
  assert (CA : forall v, carried p (fmul (fmul A D3) T) v = fapp (fmul A D3) v) by (intro v; unfold carried; cbn [tool p]; rewrite (fapp_fmul (fmul A D3)), fapp_inv_r by exact RTo; reflexivity).
  intros a b c z. rewrite CA, CG.
  assert (B0' : dist (fapp (fmul A D3) w) (fapp G w) <= pair_bound (away e1 w) (away e0 (fapp G w))).
  { rewrite (fapp_fmul A). unfold D3. rewrite (axis_stays e3 w) by (auto; apply UE; cbn; auto). unfold A. rewrite (fapp_fmul (asFrame e0 th0)), (fapp_fmul (asFrame e1 th1)). exact B0. }
  apply pose_bound; auto.
  - unfold G, goal. apply rigid_mul; [destruct reversed; [apply rigid_inv; exact RT|exact RT]|apply rigid_inv; exact RTo].
  - rewrite !shifted. rewrite UP.
    assert (KA : mv (fM (fmul A D3)) (e_axis e0) = e_axis e0).
    { assert (CM : forall f f', mv (fM f) (e_axis e0) = e_axis e0 -> mv (fM f') (e_axis e0) = e_axis e0 -> mv (fM (fmul f f')) (e_axis e0) = e_axis e0).
      { intros f f' H H'. unfold fmul. cbn [fM]. rewrite mv_mm, H'. exact H. }
      assert (P0 : parallel e0 e0) by (left; reflexivity).
      unfold A, D3. repeat apply CM; apply axis_kept; assumption. }
    rewrite KA. revert B0'. generalize (fapp (fmul A D3) w), (fapp G w), (e_axis e0). clear. intros u v t H. unfold dist in *.
    replace (vsub (vadd u t) (vadd v t)) with (vsub u v) by (destruct u, v, t; vlin). exact H.
  - rewrite before by exact RA. rewrite fapp_id in B2. cbn [product seq fold_right] in B2. rewrite E20, E21, E22, fmul_id_r in B2. exact B2.
Qed.
End ScaraSound.
