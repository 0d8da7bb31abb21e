(** Proofs about the poses of the candidates of the closed-form inverse kinematics. *)
From Coq Require Import Reals Lra List Bool Lia Arith.
From Verif Require Import Kdl KdlFacts Screw ScrewFacts Trig TrigFacts Subproblems SubproblemFacts SubproblemFacts2 SubproblemFacts3 SubproblemFacts4 SubproblemFacts5
  IkProblem IkSpec IkProblemFacts IkProblemFacts2 IkProblemFacts3 Builder BuilderSpec IkPoseSpec.
Import ListNotations.
Open Scope R_scope.
Local Notation S := Datatypes.S.

Section Pose.
Variable p : poe.
Variable reversed : bool.
Variable target : frame.
Hypothesis POK : poe_ok p.
Let es := exps p.
Let n := length es.

(** a step of a derivation, seen from its end *)
Lemma derived_step : forall marks pre s ids post ks q ok,
  derived p reversed target marks (pre ++ (s, ids) :: post) ks q ok -> steps_ok n (pre ++ (s, ids) :: post) ->
  exists ks0 q0 ok0 a b rhs h flag locs k loc,
    derived p reversed target marks pre ks0 q0 ok0 /\ first_unknown p (concat (map snd pre)) a /\ right_end p (concat (map snd pre)) b /\
    rhs_of p reversed target (concat (map snd pre)) q0 a rhs /\ point_of p reversed (marks ks0 (concat (map snd pre)) ids) q0 a b h /\
    st_solve s rhs h = Some (flag, locs) /\ nth_error locs k = Some loc /\ map fst loc = ids /\
    (ok = true -> flag = true) /\ length q = n /\
    (forall i, In i (concat (map snd pre)) -> displ p reversed q i = displ p reversed q0 i) /\
    (forall i, In i ids -> nth (slot p reversed i) q 0 = nth (slot p reversed i) (assign p reversed loc q0) 0).
Proof.
  intros marks pre s ids post. induction post as [|[s' ids'] post IH] using rev_ind; intros ks q ok D OK.
  - inversion D as [E1|ss0 ks0 q0 ok0 s0 ids0 a b rhs h flag locs k loc D0 FU RE RH PO SV NT E1 E2 E3 E4]; [now destruct pre|].
    apply app_inj_tail in E1. destruct E1 as [-> E1]. injection E1 as -> ->. subst.
    destruct (steps_ok_app _ _ _ _ OK) as (OK1 & SO & DI).
    destruct (derived_zero _ _ _ _ _ _ _ _ D0 OK1) as [L _].
    destruct SO as (_ & _ & CT). destruct (CT _ _ _ _ SV) as [_ LI]. assert (EL : map fst loc = ids) by (apply LI; eapply nth_error_In; eauto).
    exists ks0, q0, ok0, a, b, rhs, h, flag, locs, k, loc. repeat (split; [assumption|]). split; [|split; [|split]].
    + intro T. apply andb_prop in T. tauto.
    + now rewrite assign_length.
    + intros i Hi. apply displ_ext. destruct OK1 as (_ & _ & B1). apply assign_other.
      * rewrite EL. intros j Hj. apply DI. exact Hj.
      * apply B1, Hi.
      * rewrite EL. intro J. apply DI in J. tauto.
    + reflexivity.
  - change (pre ++ (s, ids) :: post ++ [(s', ids')]) with (pre ++ ((s, ids) :: post) ++ [(s', ids')]) in D, OK. rewrite app_assoc in D, OK.
    inversion D as [E1|ss0 ks0 q0 ok0 s0 ids0 a b rhs h flag locs k loc D0 FU RE RH PO SV NT E1 E2 E3 E4]; [destruct pre; discriminate|].
    apply app_inj_tail in E1. destruct E1 as [-> E1]. injection E1 as -> ->. subst.
    destruct (steps_ok_app _ _ _ _ OK) as (OK1 & SO & DI).
    destruct (IH _ _ _ D0 OK1) as (ks1 & q1 & ok1 & a1 & b1 & rhs1 & h1 & flag1 & locs1 & k1 & loc1 & D1 & F1 & R1 & H1 & P1 & S1 & N1 & M1 & T1 & L1 & K1 & I1).
    destruct SO as (_ & _ & CT). destruct (CT _ _ _ _ SV) as [_ LI]. assert (EL : map fst loc = ids') by (apply LI; eapply nth_error_In; eauto).
    exists ks1, q1, ok1, a1, b1, rhs1, h1, flag1, locs1, k1, loc1. repeat (split; [assumption|]).
    assert (O : forall i, In i (concat (map snd (pre ++ (s, ids) :: post))) -> nth (slot p reversed i) (assign p reversed loc q0) 0 = nth (slot p reversed i) q0 0).
    { intros i Hi. destruct OK1 as (_ & _ & B1). apply assign_other.
      - rewrite EL. intros j Hj. apply DI. exact Hj.
      - apply B1, Hi.
      - rewrite EL. intro J. apply DI in J. tauto. }
    split; [|split; [|split]].
    + intro T. apply andb_prop in T. tauto.
    + now rewrite assign_length.
    + intros i Hi. rewrite <- (K1 i Hi). apply displ_ext, O. rewrite map_app, concat_app. apply in_or_app. auto.
    + intros i Hi. rewrite <- (I1 i Hi). apply O. rewrite map_app, concat_app. cbn. apply in_or_app. right. apply in_or_app. auto.
Qed.

Lemma fixed_tail : forall q x len lo, (lo + len = n)%nat -> (forall i, (lo <= i < n)%nat -> fixes es i x) -> fapp (product p reversed q lo len) x = x.
Proof.
  intros q x. induction len as [|len IH]; intros lo L H; [apply fapp_id|].
  rewrite product_cons, fapp_fmul, IH by (try lia; intros; apply H; lia).
  destruct (H lo) as (e & N & M); [lia|]. unfold displ. rewrite (nth_error_nth _ _ _ N). apply M.
Qed.

Lemma dist_rigid : forall f x y, rigid f -> dist (fapp f x) (fapp f y) = dist x y.
Proof. intros f x y R. unfold dist. rewrite fapp_sub. apply norm_rot. exact R. Qed.

Lemma first_unknown_eq : forall K a b, first_unknown p K a -> first_unknown p K b -> a = b.
Proof.
  intros K a b (A1 & A2 & A3) (B1 & B2 & B3). destruct (Nat.lt_trichotomy a b) as [L|[L|L]]; auto.
  - elim A2. now apply B3.
  - elim B2. now apply A3.
Qed.

Lemma aim_equation : forall pre s ids post ks q ok x a l,
  derived p reversed target own_marks (pre ++ (s, ids) :: post) ks q ok -> steps_ok n (pre ++ (s, ids) :: post) -> rigid target ->
  (0 < l)%nat -> (a + l <= n)%nat -> (forall i, In i ids <-> (a <= i < a + l)%nat) -> (forall j, (j < a)%nat -> In j (concat (map snd pre))) ->
  clear_right es (concat (map snd pre)) (a + l - 1) x ->
  exists rhs h flag locs k loc q0, st_solve s rhs h = Some (flag, locs) /\ nth_error locs k = Some loc /\ map fst loc = ids /\
    (ok = true -> flag = true) /\ length q = n /\ length q0 = n /\
    (forall i, In i ids -> nth (slot p reversed i) q 0 = nth (slot p reversed i) (assign p reversed loc q0) 0) /\
    fapp h x = fapp (product p reversed q (a + l) (n - (a + l))) x /\
    dist (fapp (product p reversed q 0 n) x) (fapp (goal p reversed target) x) = dist (fapp (product p reversed q a l) (fapp h x)) (fapp rhs x).
Proof.
  intros pre s ids post ks q ok x a l D OK RT L0 LN RG LE (NL & c & CR & KN & UN).
  destruct (derived_step _ _ _ _ _ _ _ _ D OK) as (ks0 & q0 & ok0 & a1 & b & rhs & h & flag & locs & k & loc & D0 & FU & RE & RH & PO & SV & NT & EL & OKF & LQ & KQ & IQ).
  set (K := concat (map snd pre)) in *. unfold own_marks in PO.
  assert (NK : forall i, (a <= i < a + l)%nat -> ~ In i K).
  { intros i Hi. destruct OK as (_ & ND & _). rewrite map_app, concat_app in ND. cbn in ND. destruct (NoDup_app_inv _ _ ND) as [_ Dj]. apply Dj.
    apply in_or_app. left. now apply RG. }
  assert (FA : first_unknown p K a). { split; [fold es n; lia|]. split; [apply NK; lia|exact LE]. }
  rewrite <- (first_unknown_eq _ _ _ FA FU) in *. clear FU a1.
  destruct RE as [[X _]|[_ ->]]; [contradiction|]. destruct RH as [[X _]|[_ RH]]; [contradiction|]. fold es n in PO.
  assert (L0q : length q0 = n).
  { apply (derived_zero _ _ _ _ _ _ _ _ D0). destruct OK as (A & B & C). rewrite map_app, concat_app in B, C.
    destruct (NoDup_app_inv _ _ B) as [B1 _]. split; [|split; [exact B1|]].
    - intros; apply A, in_or_app; auto.
    - intros i Hi. apply C, in_or_app. auto. }
  assert (HX : fapp h x = fapp (product p reversed q (a + l) (n - (a + l))) x).
  { replace (n - (a + l))%nat with ((c - (a + l)) + (n - c))%nat by lia. rewrite product_app, fapp_fmul.
    replace (a + l + (c - (a + l)))%nat with c by lia. rewrite (fixed_tail q x (n - c) c); [|lia|intros i Hi; apply UN; fold es n; lia].
    destruct PO as [[-> N]|(lo & hi & H1 & H2 & U & KI & LO & ->)].
    - destruct (Nat.eq_dec c (a + l)) as [->|NE]; [now rewrite Nat.sub_diag|]. exfalso. apply (N (a + l)%nat); [lia|]. apply KN. lia.
    - assert (A1 : (a + l <= lo)%nat). { destruct (Nat.lt_ge_cases lo (a + l)); [|assumption]. exfalso. apply (NK lo); [lia|]. apply KI. lia. }
      assert (A2 : (hi <= c)%nat). { destruct (Nat.le_gt_cases hi c); [assumption|]. exfalso. apply (UN (hi - 1)%nat); [fold es n; lia|]. apply KI. lia. }
      assert (A3 : hi = c). { destruct (Nat.eq_dec hi c); [assumption|]. exfalso. apply (U hi); [fold es n; lia|]. apply KN. lia. }
      assert (A4 : lo = (a + l)%nat). { destruct (Nat.eq_dec lo (a + l)); [assumption|]. destruct LO as [LO|LO]; [lia|]. exfalso. apply LO. apply KN. lia. }
      subst lo hi. f_equal. symmetry. apply product_ext. intros i Hi. apply KQ. apply KN. lia. }
  exists rhs, h, flag, locs, k, loc, q0. repeat (split; [assumption|]).
  assert (RA : rigid (product p reversed q 0 a)) by (apply product_rigid; [exact POK|fold es n; lia]).
  assert (PQ : product p reversed q0 0 a = product p reversed q 0 a).
  { symmetry. apply product_ext. intros i Hi. apply KQ. apply LE. lia. }
  rewrite RH, PQ, HX, fapp_fmul. rewrite <- (dist_rigid (product p reversed q 0 a) (fapp (product p reversed q a l) _)) by exact RA.
  rewrite fapp_inv_r by exact RA. rewrite <- !fapp_fmul. f_equal.
  replace n with (a + (l + (n - (a + l))))%nat at 1 by lia. rewrite !product_app. cbn [Nat.add]. now rewrite fmul_assoc.
Qed.

Lemma displ_of : forall q i e th, nth_error es i = Some e -> nth (slot p reversed i) q 0 = (if reversed then - th else th) -> displ p reversed q i = asFrame e th.
Proof.
  intros q i e th N H. unfold displ. rewrite (nth_error_nth _ _ _ N), H. destruct reversed; [|reflexivity]. f_equal. ring.
Qed.
Lemma assigned1 : forall q0 id th, length q0 = n -> (id < n)%nat ->
  nth (slot p reversed id) (assign p reversed [(id, th)] q0) 0 = if reversed then - th else th.
Proof. intros. cbn. apply put_nth_same. rewrite H. now apply slot_lt. Qed.
Lemma assigned2 : forall q0 id1 id2 th1 th2, length q0 = n -> (id1 < n)%nat -> (id2 < n)%nat -> id1 <> id2 ->
  nth (slot p reversed id1) (assign p reversed [(id1, th1); (id2, th2)] q0) 0 = (if reversed then - th1 else th1) /\
  nth (slot p reversed id2) (assign p reversed [(id1, th1); (id2, th2)] q0) 0 = (if reversed then - th2 else th2).
Proof.
  intros. cbn. split.
  - rewrite put_nth_other by (intro X; apply slot_inj in X; auto). apply put_nth_same. rewrite H. now apply slot_lt.
  - apply put_nth_same. rewrite put_length, H. now apply slot_lt.
Qed.

(** the point a step aims at ends within its allowance of its goal *)
Lemma aimed : forall pre s post ks q x,
  derived p reversed target own_marks (problem_steps (pre ++ s :: post)) ks q true ->
  steps_ok n (problem_steps (pre ++ s :: post)) -> rigid target ->
  aims es (concat (map sub_ids pre)) s x ->
  length q = n /\ dist (fapp (product p reversed q 0 n) x) (fapp (goal p reversed target) x) <= allowance s (arm_length p reversed q s x).
Proof.
  intros pre s post ks q x D OK RT A.
  assert (EK : concat (map sub_ids pre) = concat (map snd (problem_steps pre))) by (unfold problem_steps; now rewrite map_map).
  rewrite EK in A. clear EK. unfold problem_steps in *. rewrite map_app in D, OK. cbn [map] in D, OK.
  destruct POK as [FU _]. rewrite Forall_forall in FU.
  destruct s as [id e x0|id1 id2 e1 e2 x0 r| | | | | ]; cbn [aims] in A; try contradiction.
  - destruct A as (-> & N & Mo & _ & LE & CR). assert (ID : (id < n)%nat) by (eapply nth_error_lt; eauto).
    assert (ue : unit (e_axis e)) by (apply FU; eapply nth_error_In; exact N).
    destruct (aim_equation _ _ _ _ _ _ _ x0 id 1 D OK RT) as (rhs & h & flag & locs & k & loc & q0 & SV & NT & EL & OKF & LQ & LQ0 & IQ & HX & EQ);
      [lia|lia|intro i; cbn; lia|exact LE|replace (id + 1 - 1)%nat with id by lia; exact CR|].
    split; [exact LQ|]. rewrite EQ. rewrite OKF in SV by reflexivity. destruct e as [m a o]. cbn in Mo, ue. subst m.
    cbn [st_solve sub_step pk1_step] in SV. destruct (pk1_sound _ _ _ _ _ _ _ ue SV) as (th & -> & B).
    destruct k as [|[|]]; cbn in NT; try discriminate. injection NT as <-.
    rewrite product_cons. cbn [product seq fold_right]. rewrite fmul_id_r.
    rewrite (displ_of q id _ th N) by (rewrite IQ by (now left); now apply assigned1).
    cbn [allowance arm_length e_origin]. fold es n. replace (S id) with (id + 1)%nat by lia. rewrite <- HX. exact B.
  - destruct A as (-> & -> & N1 & N2 & M1 & M2 & (t1 & t2 & R1 & R2) & CX & _ & _ & LE & CR).
    assert (ID : (S id1 < n)%nat) by (eapply nth_error_lt; eauto).
    assert (u1 : unit (e_axis e1)) by (apply FU; eapply nth_error_In; exact N1).
    assert (u2 : unit (e_axis e2)) by (apply FU; eapply nth_error_In; exact N2).
    destruct (aim_equation _ _ _ _ _ _ _ x0 id1 2 D OK RT) as (rhs & h & flag & locs & k & loc & q0 & SV & NT & EL & OKF & LQ & LQ0 & IQ & HX & EQ);
      [lia|lia|intro i; cbn; lia|exact LE|replace (id1 + 2 - 1)%nat with (S id1) by lia; exact CR|].
    split; [exact LQ|]. rewrite EQ. rewrite OKF in SV by reflexivity. destruct e1 as [m1 a1 o1], e2 as [m2 a2 o2]. cbn in M1, M2, u1, u2, CX. subst m1 m2.
    assert (O1 : o1 = vadd r (vscale (- t1) a1)) by (rewrite R1; unfold point_on; cbn; vlin).
    assert (O2 : o2 = vadd r (vscale (- t2) a2)) by (rewrite R2; unfold point_on; cbn; vlin).
    assert (NZ : 1 - dot a1 a2 * dot a1 a2 <> 0).
    { intro Z. apply CX. apply dot_self_zero. rewrite lagrange. unfold unit in u1, u2. rewrite u1, u2. lra. }
    cbn [st_solve sub_step pk2_step] in SV. rewrite O1, O2 in SV.
    destruct (pk2_flag_sound _ _ u1 u2 NZ _ _ _ _ _ _ _ _ _ SV) as (th11 & th21 & th12 & th22 & -> & B1 & B2). rewrite <- O1, <- O2 in B1, B2.
    assert (C : exists th1 th2, loc = [(id1, th1); (S id1, th2)] /\ dist (move2 (E ROTATION a1 o1) (E ROTATION a2 o2) th1 th2 (fapp h x0)) (fapp rhs x0) <= sqrt kdl_eps + kdl_eps * (2 + 2 * dist (fapp h x0) r)).
    { destruct k as [|[|[|]]]; cbn in NT; try discriminate; injection NT as <-; eauto. }
    destruct C as (th1 & th2 & -> & B).
    destruct (assigned2 q0 id1 (S id1) th1 th2 LQ0) as [A1 A2]; try lia.
    rewrite !product_cons. cbn [product seq fold_right]. rewrite fmul_id_r, fapp_fmul.
    rewrite (displ_of q id1 _ th1 N1) by (rewrite IQ by (now left); exact A1).
    rewrite (displ_of q (S id1) _ th2 N2) by (rewrite IQ by (right; now left); exact A2).
    cbn [allowance arm_length]. fold es n. replace (S (S id1)) with (id1 + 2)%nat by lia. rewrite <- HX. exact B.
Qed.

(** ** From the displacements to forward kinematics *)
Lemma eval_product_gen : forall q', length q' = n -> (forall i, (i < n)%nat -> displ p reversed (if reversed then rev_neg q' else q') i = asFrame (nth i es (E ROTATION vzero vzero)) (nth i q' 0)) ->
  forall len lo, (lo + len = n)%nat -> eval_terms (skipn lo es) (skipn lo q') fid = product p reversed (if reversed then rev_neg q' else q') lo len.
Proof.
  intros q' L H. induction len as [|len IH]; intros lo E.
  - rewrite skipn_all2 by (fold n; lia). rewrite skipn_all2 by lia. reflexivity.
  - rewrite product_cons, <- IH by lia. rewrite H by lia. rewrite <- eval_terms_step. f_equal.
    + clear - E. unfold n in E. clearbody es. revert lo E. induction es as [|e l IHl]; intros lo E; [cbn in E; lia|]. destruct lo; [reflexivity|]. cbn in *. apply IHl. lia.
    + assert (E' : (lo + S len = length q')%nat) by lia. clear - E'. revert lo E'. induction q' as [|e l IHl]; intros lo E; [cbn in E; lia|]. destruct lo; [reflexivity|]. cbn in *. apply IHl. lia.
Qed.
Lemma evaluate_product : forall q, length q = n ->
  evaluate p (if reversed then rev_neg q else q) = Some (fmul (product p reversed q 0 n) (tool p)).
Proof.
  intros q L. set (q' := if reversed then rev_neg q else q).
  assert (L' : length q' = n) by (unfold q', rev_neg; destruct reversed; [rewrite rev_length, map_length|]; exact L).
  rewrite evaluate_some by exact L'. f_equal. f_equal.
  assert (B : (if reversed then rev_neg q' else q') = q) by (unfold q'; destruct reversed; [apply rev_neg_rev_neg|reflexivity]).
  rewrite <- B at 1. change (exps p) with (skipn 0 es). change q' with (skipn 0 q') at 1. apply eval_product_gen; [exact L'| |lia].
  intros i Hi. rewrite B. unfold displ. f_equal. unfold slot, q'. destruct reversed; [|reflexivity]. fold es n.
  unfold rev_neg. rewrite rev_nth by (rewrite map_length; lia). rewrite map_length, L.
  replace (n - S i)%nat with (n - 1 - i)%nat by lia. replace 0 with (- 0) at 2 by ring. now rewrite map_nth.
Qed.

Lemma points : forall ss cands q, rigid target -> steps_ok n (problem_steps ss) -> in_order p (problem_steps ss) -> ss <> [] ->
  ik_solve p (map sub_step ss) reversed target = Some (true, cands) -> In q cands ->
  exists f, evaluate p (if reversed then rev_neg q else q) = Some f /\ rigid f /\
    forall pre s post x, ss = pre ++ s :: post -> aims (exps p) (concat (map sub_ids pre)) s x ->
      dist (carried p f x) (carried p (if reversed then finv target else target) x) <= allowance s (arm_length p reversed q s x).
Proof.
  intros ss cands q RT OK IO NE SV I.
  assert (SV' : ik_solve p (map fst (problem_steps ss)) reversed target = Some (true, cands)).
  { unfold problem_steps. rewrite map_map. exact SV. }
  assert (NE' : problem_steps ss <> []) by (destruct ss; [congruence|discriminate]).
  destruct (solve_spec p reversed target POK _ _ _ OK NE' SV') as (_ & LQ & _).
  destruct (solve_own p reversed target POK _ _ _ OK NE' IO SV') as (bs & FB & LB & DV).
  apply In_nth_error in I. destruct I as (c & I). specialize (DV c q I).
  assert (T : nth c bs true = true).
  { destruct (Nat.lt_ge_cases c (length bs)) as [C|C]; [|now apply nth_overflow]. symmetry in FB. rewrite forallb_forall in FB. apply FB. now apply nth_In. }
  rewrite T in DV. exists (fmul (product p reversed q 0 n) (tool p)).
  split; [apply evaluate_product; apply LQ; eapply nth_error_In; exact I|].
  split; [apply rigid_mul; [apply product_rigid; [exact POK|fold es n; lia]|apply POK]|].
  intros pre s post x -> A. destruct (aimed _ _ _ _ _ _ DV OK RT A) as [_ B].
  unfold carried. rewrite fapp_fmul, fapp_inv_r by apply POK. unfold goal in B. rewrite fapp_fmul in B. exact B.
Qed.
End Pose.

(** ** Three points fix a pose *)
Lemma norm_cross_le : forall u v, norm (cross u v) <= norm u * norm v.
Proof.
  intros. apply Rsqr_incr_0_var; [|apply Rmult_le_pos; apply norm_nonneg]. unfold Rsqr.
  replace (norm u * norm v * (norm u * norm v)) with ((norm u * norm u) * (norm v * norm v)) by ring.
  rewrite !norm_sqr, lagrange. pose proof (Rle_0_sqr (dot u v)) as H. unfold Rsqr in H. lra.
Qed.
Lemma norm_neg : forall u, norm (vneg u) = norm u.
Proof. intros. apply norm_eq_iff. vring. Qed.
Lemma vsub_tri : forall a b c d, norm (vsub (vsub a b) (vsub c d)) <= norm (vsub a c) + norm (vsub b d).
Proof.
  intros. replace (vsub (vsub a b) (vsub c d)) with (vadd (vsub a c) (vneg (vsub b d))) by vlin.
  eapply Rle_trans; [apply norm_triangle|]. rewrite norm_neg. lra.
Qed.

Lemma pose_bound : forall f g o x y d0 d1 d2 a b c, rigid f -> rigid g ->
  dist (fapp f o) (fapp g o) <= d0 -> dist (fapp f x) (fapp g x) <= d1 -> dist (fapp f y) (fapp g y) <= d2 ->
  dist (fapp f (combination o (vsub x o) (vsub y o) a b c)) (fapp g (combination o (vsub x o) (vsub y o) a b c)) <=
  d0 + Rabs a * (d0 + d1) + Rabs b * (d0 + d2) + Rabs c * ((d0 + d1) * dist y o + (d0 + d2) * dist x o).
Proof.
  intros f g o x y d0 d1 d2 a b c Rf Rg H0 H1 H2.
  set (u := vsub x o). set (v := vsub y o). unfold rigid in Rf, Rg.
  assert (U : norm (vsub (mv (fM f) u) (mv (fM g) u)) <= d0 + d1).
  { unfold u. rewrite <- !fapp_sub. eapply Rle_trans; [apply vsub_tri|]. unfold dist in *. lra. }
  assert (W : norm (vsub (mv (fM f) v) (mv (fM g) v)) <= d0 + d2).
  { unfold v. rewrite <- !fapp_sub. eapply Rle_trans; [apply vsub_tri|]. unfold dist in *. lra. }
  assert (X : norm (vsub (mv (fM f) (cross u v)) (mv (fM g) (cross u v))) <= (d0 + d1) * dist y o + (d0 + d2) * dist x o).
  { rewrite !cross_rot by assumption.
    replace (vsub (cross (mv (fM f) u) (mv (fM f) v)) (cross (mv (fM g) u) (mv (fM g) v))) with
      (vadd (cross (vsub (mv (fM f) u) (mv (fM g) u)) (mv (fM f) v)) (cross (mv (fM g) u) (vsub (mv (fM f) v) (mv (fM g) v)))).
    2:{ generalize (mv (fM f) u), (mv (fM f) v), (mv (fM g) u), (mv (fM g) v). intros. vring. }
    eapply Rle_trans; [apply norm_triangle|]. apply Rplus_le_compat.
    - eapply Rle_trans; [apply norm_cross_le|]. rewrite norm_rot by assumption. apply Rmult_le_compat_r; [apply norm_nonneg|exact U].
    - eapply Rle_trans; [apply norm_cross_le|]. rewrite norm_rot by assumption. rewrite Rmult_comm. apply Rmult_le_compat_r; [apply norm_nonneg|exact W]. }
  assert (EQ : forall h, fapp h (combination o u v a b c) = vadd (fapp h o) (vadd (vscale a (mv (fM h) u)) (vadd (vscale b (mv (fM h) v)) (vscale c (mv (fM h) (cross u v)))))).
  { intro h. unfold combination, fapp. rewrite !mv_add, !mv_scale. generalize (mv (fM h) o), (mv (fM h) u), (mv (fM h) v), (mv (fM h) (cross u v)), (fp h). intros. vlin. }
  unfold dist at 1. rewrite !EQ.
  clear EQ. revert U W X. generalize (mv (fM f) (cross u v)), (mv (fM g) (cross u v)), (mv (fM f) u), (mv (fM g) u), (mv (fM f) v), (mv (fM g) v).
  intros fc gc fu gu fv gv U W X.
  replace (vsub (vadd (fapp f o) (vadd (vscale a fu) (vadd (vscale b fv) (vscale c fc)))) (vadd (fapp g o) (vadd (vscale a gu) (vadd (vscale b gv) (vscale c gc))))) with
    (vadd (vsub (fapp f o) (fapp g o)) (vadd (vscale a (vsub fu gu)) (vadd (vscale b (vsub fv gv)) (vscale c (vsub fc gc))))) by vlin.
  eapply Rle_trans; [apply norm_triangle|]. rewrite !Rplus_assoc. apply Rplus_le_compat; [exact H0|].
  eapply Rle_trans; [apply norm_triangle|]. apply Rplus_le_compat; [rewrite norm_scale; apply Rmult_le_compat_l; [apply Rabs_pos|exact U]|].
  eapply Rle_trans; [apply norm_triangle|]. apply Rplus_le_compat; [rewrite norm_scale; apply Rmult_le_compat_l; [apply Rabs_pos|exact W]|].
  rewrite norm_scale. apply Rmult_le_compat_l; [apply Rabs_pos|exact X].
Qed.
