(** Runs of the search of subproblems: what its steps are worth. *)
From Coq Require Import Reals List Bool Arith Lia Lra Permutation.
From Verif Require Import Kdl KdlFacts Screw ScrewFacts Trig TrigFacts Subproblems IkProblem IkSpec IkProblemFacts IkProblemFacts2 IkProblemFacts3 Builder BuilderSpec BuilderFacts BuilderFacts2 BuilderExamples.
Import ListNotations.
Open Scope R_scope.
Local Notation S := Datatypes.S.

(** ** The sliders: a reachable pose that no candidate reaches *)
Definition gantry_pose : frame := match evaluate gantry [0; 0; PI / 2] with Some f => f | None => fid end.

Lemma derived_snoc : forall p rev t marks ss s ids ks q b,
  derived p rev t marks (ss ++ [(s, ids)]) ks q b ->
  exists ks0 q0 b0 a b1 rhs h flag locs k loc,
    derived p rev t marks ss ks0 q0 b0 /\ first_unknown p (concat (map snd ss)) a /\
    right_end p (concat (map snd ss)) b1 /\ rhs_of p rev t (concat (map snd ss)) q0 a rhs /\
    point_of p rev (marks ks0 (concat (map snd ss)) ids) q0 a b1 h /\
    st_solve s rhs h = Some (flag, locs) /\ nth_error locs k = Some loc /\ q = assign p rev loc q0.
Proof.
  intros p rev t marks ss s ids ks q b D. remember (ss ++ [(s, ids)]) as L eqn:EL.
  destruct D as [|ss1 ks1 q1 ok1 s1 ids1 a1 b1 rhs1 h1 fl1 lo1 k1 loc1]; [destruct ss; discriminate|].
  apply app_inj_tail in EL. destruct EL as [-> [= -> ->]]. do 11 eexists. do 7 (refine (conj _ _); [eassumption|]). reflexivity.
Qed.

Lemma gantry_steps_ok : steps_ok 3 (problem_steps gantry_steps).
Proof.
  split; [|split].
  - intros s ids H. cbn in H. destruct H as [E|[E|[E|[]]]]; injection E as <- <-; auto using pg1_ok, pk1_ok.
  - cbn. repeat constructor; cbn; lia.
  - cbn. lia.
Qed.

Lemma first_unknown_nil : forall p a, first_unknown p [] a -> a = 0%nat.
Proof. intros p [|a] (_ & _ & H); [reflexivity|]. destruct (H 0%nat ltac:(lia)). Qed.

(** the first slider takes the height of the image of the origin *)
Lemma gantry_candidate : forall ks q b, derived gantry false gantry_pose code_marks (problem_steps gantry_steps) ks q b ->
  exists q1 q2, q = [vz (fapp gantry_pose vzero); q1; q2].
Proof.
  intros ks q b D. unfold problem_steps, gantry_steps in D. cbn [map] in D.
  change ([?a; ?b; ?c] : list (step * list nat)) with (([] ++ [a] ++ [b]) ++ [c]) in D.
  apply derived_snoc in D. destruct D as (k3 & q3 & b3 & a3 & e3 & r3 & h3 & f3 & l3 & i3 & o3 & D & _ & _ & _ & _ & V3 & N3 & ->).
  rewrite app_assoc in D. apply derived_snoc in D. destruct D as (k2 & q2 & b2 & a2 & e2 & r2 & h2 & f2 & l2 & i2 & o2 & D & _ & _ & _ & _ & V2 & N2 & ->).
  apply derived_snoc in D. destruct D as (k1 & q1 & b1 & a1 & e1 & r1 & h1 & f1 & l1 & i1 & o1 & D & A1 & E1 & R1 & H1 & V1 & N1 & ->).
  inversion D as [X1 X2 X3 X4|]; [|exfalso; now destruct ss]. subst q1. clear D. cbn [map concat] in *.
  apply first_unknown_nil in A1. subst a1.
  assert (EI : finv fid = fid). { rewrite <- (fmul_id_r (finv fid)). apply fmul_inv_l, rigid_id. }
  assert (R : r1 = gantry_pose).
  { destruct R1 as [[[] _]|[_ ->]]. unfold product, goal. cbn [seq fold_right gantry tool]. now rewrite EI, fmul_id_l, fmul_id_r. }
  assert (H : h1 = fid).
  { assert (Ek : k1 = []). { inversion X2. reflexivity. }
    subst k1. destruct H1 as [[-> _]|(lo & hi & B & _ & _ & K & _)]; [reflexivity|]. destruct (K lo ltac:(lia)). }
  subst r1 h1. cbn [st_solve sub_step pg1_step] in V1. unfold pg1_solve in V1. injection V1 as <- <-.
  destruct i1 as [|[|]]; [|discriminate|discriminate]. injection N1 as <-.
  cbn [st_solve sub_step pg1_step] in V2. unfold pg1_solve in V2. injection V2 as <- <-.
  destruct i2 as [|[|]]; [|discriminate|discriminate]. injection N2 as <-.
  cbn [st_solve sub_step pk1_step] in V3. unfold pk1_solve in V3. injection V3 as <- <-.
  destruct i3 as [|[|]]; [|discriminate|discriminate]. injection N3 as <-.
  unfold assign, slot. cbn [fold_left fst snd repeat put length exps gantry].
  do 2 eexists. f_equal. rewrite fapp_id. unfold dot, vsub, vneg, g0, vzero. cbn [vx vy vz e_axis]. ring.
Qed.

Lemma gantry_fk : forall a b t, evaluate gantry [a; b; t] =
  Some (F (Rot2 (V 0 1 0) t) (V (b + 1 - cos t) 0 (a + sin t))).
Proof.
  intros a b t. unfold evaluate. cbn [length exps gantry Nat.eqb tool]. rewrite fmul_id_r. unfold eval_terms. cbn [combine fold_left fst snd].
  rewrite fmul_id_l. f_equal. unfold asFrame, g0, g1, g2. cbn [e_motion e_axis e_origin].
  unfold fmul. cbn [fM fp]. rewrite !mm_id_l. f_equal.
  unfold fapp. cbn [fM fp]. rewrite !mv_id. unfold vadd, vscale, mv, msub, mid, Rot2, cross. cbn. f_equal; ring.
Qed.
Lemma gantry_pose_eq : evaluate gantry [0; 0; PI / 2] = Some gantry_pose /\ fapp gantry_pose vzero = V 1 0 1.
Proof.
  unfold gantry_pose. rewrite gantry_fk. split; [reflexivity|]. rewrite cos_PI2, sin_PI2.
  unfold fapp, mv, vzero, vadd. cbn. f_equal; ring.
Qed.

Lemma gantry_missed : forall flag cands q,
  ik_solve gantry (map sub_step gantry_steps) false gantry_pose = Some (flag, cands) -> In q cands ->
  evaluate gantry q <> Some gantry_pose.
Proof.
  intros flag cands q H I E.
  change (map sub_step gantry_steps) with (map fst (problem_steps gantry_steps)) in H.
  assert (POK : poe_ok gantry).
  { split; [|apply rigid_id]. repeat constructor; unfold unit, g0, g1, g2, dot; cbn; ring. }
  pose proof (solve_spec gantry false gantry_pose POK (problem_steps gantry_steps) flag cands gantry_steps_ok ltac:(discriminate) H) as (_ & _ & bs & _ & _ & D).
  destruct (In_nth_error _ _ I) as [c Ec]. specialize (D c q Ec).
  destruct (gantry_candidate _ _ _ D) as (q1 & q2 & ->).
  destruct gantry_pose_eq as [EP E0]. rewrite E0 in E. cbn [vz] in E. rewrite <- EP in E. rewrite !gantry_fk in E.
  assert (EM : Rot2 (V 0 1 0) q2 = Rot2 (V 0 1 0) (PI / 2)) by (now apply (f_equal (fun o => match o with Some f => fM f | None => mid end)) in E).
  apply (f_equal (fun o => match o with Some f => vz (fp f) | None => 0 end)) in E. cbn [fp vz] in E. rename E into EZ.
  apply (f_equal (fun v => mv v (V 0 0 1))) in EM. rewrite !Rot2_mv in EM.
  apply (f_equal vx) in EM. unfold vadd, vscale, cross, dot in EM. cbn in EM. rewrite sin_PI2 in EM, EZ. rewrite cos_PI2 in EM. lra.
Qed.

Lemma gantry_answers : exists flag cands, ik_solve gantry (map sub_step gantry_steps) false gantry_pose = Some (flag, cands).
Proof.
  change (map sub_step gantry_steps) with (map fst (problem_steps gantry_steps)).
  apply solve_total; [|exact gantry_steps_ok|].
  - split; [|apply rigid_id]. repeat constructor; unfold unit, g0, g1, g2, dot; cbn; ring.
  - intros s ids rhs h H. cbn in H. destruct H as [E|[E|[E|[]]]]; injection E as <- <-; discriminate.
Qed.

(** its first step is not justified *)
Lemma gantry_unjustified : ~ justified (exps gantry) [] (SPG1 0 g0 vzero).
Proof.
  intros [_ H]. cbn in H. destruct (H 1%nat ltac:(lia)) as [[]|(e & E & M & _)]. injection E as <-. discriminate M.
Qed.

(** ** One rotary joint with every characteristic point on its axis *)
Definition stuck (e : mexp) (pts : list vec) (st : search_state) : Prop :=
  (exists b, sr_terms st = [PT e false b]) /\ In (sr_p0 st) pts /\ (sr_i0 st < length pts)%nat.

Lemma stuck_body : forall e pts st, is_rotation e = true -> pts <> [] -> (forall p, In p pts -> liesOnAxis e p = true) ->
  stuck e pts st -> exists st', search_body pts st = Some st' /\ stuck e pts st'.
Proof.
  intros e pts st R NE A ((b & T) & I & LT). unfold search_body. rewrite T.
  set (d := sr_depth st). set (p0 := sr_p0 st) in *. set (p1 := sr_p1 st).
  assert (F : In (nth 0 pts vzero) pts) by (apply nth_In; destruct pts; [congruence|cbn; lia]).
  assert (S1 : exists b', simplify d p0 p1 (refresh [PT e false b]) = [PT e false b']).
  { unfold simplify, simplifyPK1. cbn [refresh map mark_leading t_known t_exp rev app find_last unknownTerm negb simp_left].
    unfold exp_at. cbn [map nth t_exp]. rewrite R, (A p0 I). cbn [andb]. cbn [change]. cbv [set_simp]. cbn [t_exp t_known].
    destruct (Nat.eqb d 1).
    - unfold simplifyPK3. cbn [find_first unknownTerm t_known negb length Nat.sub simp_right]. destruct (_ && _); cbn [change]; cbv [set_simp]; cbn; eauto.
    - cbn [existsb t_exp]. unfold is_translation. rewrite R. cbn. eauto. }
  destruct S1 as (b' & ->).
  assert (TS : trySolve d p0 p1 [PT e false b'] = NotYet).
  { unfold trySolve. destruct b'; [reflexivity|].
    cbn [count filter unknownNotSimplifiedTerm t_known t_simp negb andb length Nat.eqb Nat.ltb Nat.leb orb find_last exp_at map nth t_exp existsb knownNotSimplifiedTerm].
    unfold is_translation. rewrite R, (A p0 I). cbn. destruct (Nat.eqb d 0), (Nat.eqb d 1); reflexivity. }
  rewrite TS. eexists. split; [reflexivity|]. unfold advance. cbn [sr_i0 sr_i1 sr_p0 sr_p1 sr_depth sr_terms sr_steps].
  split.
  - destruct (Nat.eqb _ _); [destruct (Nat.eqb _ _); [|destruct (Nat.eqb _ _)]|]; cbn; eauto.
  - assert (0 < length pts)%nat by lia.
    destruct (Nat.eqb (S (sr_i0 st)) (length pts)) eqn:E0; [destruct (Nat.eqb d 0); [|destruct (Nat.eqb (S (sr_i1 st)) (length pts))]|]; cbn [sr_p0 sr_i0]; try (split; [exact F|assumption]).
    apply Nat.eqb_neq in E0. split; [apply nth_In|]; lia.
Qed.

Lemma stuck_loop : forall e pts, is_rotation e = true -> pts <> [] -> (forall p, In p pts -> liesOnAxis e p = true) ->
  forall fuel st st', stuck e pts st -> search_loop fuel pts st = Returns st' -> stuck e pts st'.
Proof.
  intros e pts R NE A. induction fuel as [|fuel IH]; intros st st' K; cbn [search_loop]; [discriminate|].
  destruct (stuck_body e pts st R NE A K) as (st1 & -> & K1). destruct (_ && _); [now apply IH|]. now intros [= <-].
Qed.

Lemma stuck_search : forall e pts fuel ts ss, is_rotation e = true -> pts <> [] -> (forall p, In p pts -> liesOnAxis e p = true) ->
  searchSolutions fuel pts [e] = Returns (ts, ss) -> count t_known ts = 0%nat.
Proof.
  intros e pts fuel ts ss R NE A. unfold searchSolutions.
  destruct (search_loop _ _ _) as [st| |] eqn:L; [|discriminate|discriminate]. intros [= <- <-].
  eapply stuck_loop in L; eauto.
  - destruct L as ((b & ->) & _). reflexivity.
  - split; [cbn; eauto|]. cbn [sr_p0 sr_i0]. split; [apply nth_In|]; destruct pts; cbn; try lia; congruence.
Qed.

(** the points found are the listed ones *)
Lemma insert_in : forall x l l' y, pt_insert x l = Some l' -> In y l' -> y = x \/ In y l.
Proof.
  induction l as [|z l IH]; cbn; intros l' y H I.
  - injection H as <-. destruct I as [->|[]]. now left.
  - destruct (compare_vectors x z); [injection H as <-; destruct I as [->|I]; auto|].
    destruct (compare_vectors z x); [|discriminate]. destruct (pt_insert x l) as [m|] eqn:E; [|discriminate].
    injection H as <-. destruct I as [->|I]; [right; now left|]. destruct (IH m y eq_refl I); auto.
Qed.
Lemma add_in : forall x l y, In y (pt_add x l) -> y = x \/ In y l.
Proof. intros x l y. unfold pt_add. destruct (pt_insert x l) as [l'|] eqn:E; [eauto using insert_in|auto]. Qed.
Lemma add_not_nil : forall x l, pt_add x l <> [].
Proof.
  intros x l. unfold pt_add. destruct (pt_insert x l) as [l'|] eqn:E; [|destruct l; discriminate].
  destruct l as [|y l]; cbn in E; [injection E as <-; discriminate|].
  destruct (compare_vectors x y); [injection E as <-; discriminate|]. destruct (compare_vectors y x); [|discriminate].
  destruct (pt_insert x l); [injection E as <-; discriminate|discriminate].
Qed.

Lemma points_nonempty : forall p draws pts d, searchPoints p draws = Some (pts, d) -> pts <> [].
Proof.
  intros p draws pts d. unfold searchPoints. destruct (random_points _ _ _) as [[l d1]|]; [|discriminate]. intros [= <- <-]. apply add_not_nil.
Qed.

Lemma draw_in : forall e draws l l' d, draw_point e draws l = Some (l', d) ->
  forall y, In y l' -> In y l \/ exists f, y = point_on e f.
Proof.
  induction draws as [|f draws IH]; cbn; intros l l' d H y I; [discriminate|].
  destruct (pt_insert _ l) as [m|] eqn:E; [|eauto]. injection H as <- <-.
  destruct (insert_in _ _ _ _ E I) as [->|]; [right; exists f; reflexivity|auto].
Qed.

Lemma one_joint_points : forall e t draws pts d, is_rotation e = true -> unit (e_axis e) -> searchPoints (P [e] t) draws = Some (pts, d) ->
  forall y, In y pts -> y = vzero \/ y = fp t \/ exists f, y = point_on e f.
Proof.
  intros e t draws pts d R U. unfold searchPoints. cbn [exps tool random_points axis_points fold_left tl]. rewrite R.
  unfold intersections. cbn [fold_left].
  destruct (draw_point _ _ _) as [[l d1]|] eqn:D; [|discriminate]. intros [= <- <-] y I.
  destruct (add_in _ _ _ I) as [->|I1]; [auto|].
  destruct (draw_in _ _ _ _ _ D y I1) as [I2|]; [|auto].
  destruct (add_in _ _ _ I2) as [->|I3].
  - right. right. exists 0. unfold point_on, vadd, vscale. destruct (e_origin e). cbn. f_equal; ring.
  - destruct (add_in _ _ _ I3) as [->|[]]. auto.
Qed.

(** the builder finds nothing, whatever is drawn *)
Lemma one_joint_null : forall e t fuel draws r, e_motion e = ROTATION -> unit (e_axis e) ->
  rigid t -> liesOnAxis e vzero = true -> liesOnAxis e (fp t) = true ->
  (let e' := changeBase e (finv t) in liesOnAxis e' vzero = true /\ liesOnAxis e' (fp (finv t)) = true) ->
  build fuel draws (P [e] t) = Returns r -> r = None.
Proof.
  intros e t fuel draws r M U RG L0 L1 (L2 & L3). unfold build.
  assert (R : is_rotation e = true) by (unfold is_rotation; now rewrite M).
  assert (LP : forall e f, liesOnAxis e (point_on e f) = true).
  { intros e1 f. unfold liesOnAxis. replace (cross _ _) with vzero.
    - unfold EqualV, Equal, kdl_eps, Rltb. cbn. destruct (Rlt_dec _ _), (Rlt_dec _ _); try reflexivity; lra.
    - destruct e1 as [m [x y z] [ox oy oz]]. unfold point_on, cross, vsub, vadd, vscale, vneg, vzero. cbn. f_equal; ring. }
  destruct (searchPoints (P [e] t) draws) as [[pts d]|] eqn:S1; [|discriminate].
  unfold build_with. cbn [option_map exps].
  destruct (searchSolutions fuel pts [e]) as [[ts ss]| |] eqn:E1; [|discriminate|discriminate].
  rewrite (stuck_search e pts fuel ts ss R (points_nonempty _ _ _ _ S1)); [|  |exact E1].
  2:{ intros p I. destruct (one_joint_points _ _ _ _ _ R U S1 p I) as [->|[->|(f & ->)]]; auto. }
  cbn [length Nat.eqb].
  set (e' := changeBase e (finv t)) in *.
  assert (RV : reverseSelf (P [e] t) = P [e'] (finv t)) by reflexivity. rewrite RV.
  assert (R' : is_rotation e' = true) by exact R.
  assert (U' : unit (e_axis e')).
  { unfold e'. cbn [changeBase e_axis]. apply unit_rot; [apply rigid_inv, RG|exact U]. }
  destruct (searchPoints (P [e'] (finv t)) d) as [[pts' d']|] eqn:S2; [|discriminate]. cbn [option_map fst exps].
  destruct (searchSolutions fuel pts' [e']) as [[ts' ss']| |] eqn:E2; [|discriminate|discriminate].
  rewrite (stuck_search e' pts' fuel ts' ss' R' (points_nonempty _ _ _ _ S2)); [|  |exact E2].
  2:{ intros p I. destruct (one_joint_points _ _ _ _ _ R' U' S2 p I) as [->|[->|(f & ->)]]; auto. }
  cbn. congruence.
Qed.

(** ** One rotary joint that is found *)
Definition crank_axis : mexp := E ROTATION (V 0 0 1) vzero.
Definition crank : poe := P [crank_axis] (F mid (V 1 0 0)).
Definition crank_steps : list sub := [SPK1 0 crank_axis (V 1 0 0)].

Lemma crank_built : forall k rest, build (S (S (S k))) (/ 2 :: rest) crank = Returns (Some (crank, crank_steps, false)).
Proof.
  intros k rest. unfold build.
  set (c1 := V 0 0 (/ 2)). set (c2 := V 1 0 0).
  assert (C0 : compare_vectors vzero vzero = false) by decide_test.
  assert (C1 : compare_vectors c1 vzero = false) by (unfold c1; decide_test).
  assert (C2 : compare_vectors vzero c1 = true) by (unfold c1; decide_test).
  assert (C3 : compare_vectors c2 vzero = false) by (unfold c2; decide_test).
  assert (C4 : compare_vectors vzero c2 = true) by (unfold c2; decide_test).
  assert (C5 : compare_vectors c2 c1 = false) by (unfold c1, c2; decide_test).
  assert (C6 : compare_vectors c1 c2 = true) by (unfold c1, c2; decide_test).
  assert (L0 : liesOnAxis crank_axis vzero = true) by (unfold crank_axis; decide_test).
  assert (L1 : liesOnAxis crank_axis c1 = true) by (unfold crank_axis, c1; decide_test).
  assert (L2 : liesOnAxis crank_axis c2 = false) by (unfold crank_axis, c2; decide_test).
  assert (S1 : searchPoints crank (/ 2 :: rest) = Some ([vzero; c1; c2], rest)).
  { unfold searchPoints. cbn [exps crank tool fp].
    assert (AX : axis_points [crank_axis] (pt_add vzero []) = [vzero]).
    { unfold axis_points. cbn [fold_left tl]. change (is_rotation crank_axis) with true. cbv iota. change (pt_add vzero []) with [vzero].
      unfold intersections. cbn [fold_left]. change (e_origin crank_axis) with vzero. unfold pt_add. cbn [pt_insert]. rewrite C0. reflexivity. }
    rewrite AX. cbn [random_points]. change (is_rotation crank_axis) with true. cbv iota. cbn [draw_point].
    change (e_origin crank_axis) with vzero.
    replace (vadd vzero (vscale (/ 2) (e_axis crank_axis))) with c1 by (unfold c1, crank_axis, vadd, vscale; cbn; f_equal; lra).
    cbn [pt_insert]. rewrite C1, C2. cbn [option_map]. change (V 1 0 0) with c2. unfold pt_add. cbn [pt_insert]. rewrite C3, C4, C5, C6. reflexivity. }
  rewrite S1. unfold build_with. cbn [option_map].
  assert (B : searchSolutions (S (S (S k))) [vzero; c1; c2] (exps crank) = Returns ([PT crank_axis true false], crank_steps)); [|rewrite B; reflexivity].
  unfold searchSolutions. cbn [exps crank map nth].
  assert (ON : forall p b, liesOnAxis crank_axis p = true -> simplify 0 p vzero (refresh [PT crank_axis false b]) = [PT crank_axis false true]).
  { intros p b L. unfold simplify, simplifyPK1. cbn [refresh map mark_leading t_known t_exp rev app find_last unknownTerm negb simp_left].
    unfold exp_at. cbn [map nth t_exp]. change (is_rotation crank_axis) with true. rewrite L. cbn [andb change]. cbv [set_simp]. reflexivity. }
  cbn [search_loop]. unfold search_body at 1. cbn [sr_depth sr_p0 sr_p1 sr_terms sr_i0 sr_i1 sr_steps].
  rewrite (ON vzero false L0). unfold trySolve at 1.
  cbn [count filter unknownNotSimplifiedTerm t_known t_simp negb andb length Nat.eqb Nat.ltb Nat.leb orb].
  unfold advance. cbn [sr_i0 sr_i1 sr_p0 sr_p1 sr_depth sr_terms sr_steps length Nat.eqb nth].
  cbn [sr_depth sr_terms count filter unknownTerm t_known negb length Nat.eqb Nat.ltb Nat.leb andb].
  unfold search_body at 1. cbn [sr_depth sr_p0 sr_p1 sr_terms sr_i0 sr_i1 sr_steps].
  rewrite (ON c1 true L1). unfold trySolve at 1.
  cbn [count filter unknownNotSimplifiedTerm t_known t_simp negb andb length Nat.eqb Nat.ltb Nat.leb orb].
  unfold advance. cbn [sr_i0 sr_i1 sr_p0 sr_p1 sr_depth sr_terms sr_steps length Nat.eqb nth].
  cbn [sr_depth sr_terms count filter unknownTerm t_known negb length Nat.eqb Nat.ltb Nat.leb andb].
  unfold search_body at 1. cbn [sr_depth sr_p0 sr_p1 sr_terms sr_i0 sr_i1 sr_steps].
  assert (S3 : simplify 0 c2 vzero (refresh [PT crank_axis false true]) = [PT crank_axis false false]).
  { unfold simplify, simplifyPK1. cbn [refresh map mark_leading t_known t_exp rev app find_last unknownTerm negb simp_left].
    unfold exp_at. cbn [map nth t_exp]. change (is_rotation crank_axis) with true. rewrite L2. reflexivity. }
  rewrite S3. unfold trySolve at 1.
  cbn [count filter unknownNotSimplifiedTerm t_known t_simp negb andb length Nat.eqb Nat.ltb Nat.leb orb find_last exp_at map nth t_exp].
  change (is_rotation crank_axis) with true. rewrite L2. reflexivity.
Qed.

(** ** Two parallel axes *)
Definition elbow0 : mexp := E ROTATION (V 0 0 1) vzero.
Definition elbow1 : mexp := E ROTATION (V 0 0 1) (V 1 0 0).
Definition elbow : poe := P [elbow0; elbow1] (F mid (V 2 0 0)).
Definition elbow_steps : list sub := [SPG4 0 1 elbow0 elbow1 vzero].

Lemma elbow_built : forall rest, build 6 (/ 2 :: / 2 :: rest) elbow = Returns (Some (elbow, elbow_steps, false)).
Proof.
  intros rest. unfold build.
  set (c1 := V 0 0 (/ 2)). set (c2 := V 1 0 0). set (c3 := V 1 0 (/ 2)). set (c4 := V 2 0 0).
  assert (C0 : compare_vectors vzero vzero = false) by decide_test.
  assert (A1 : compare_vectors vzero c1 = true) by (unfold c1; decide_test).
  assert (A2 : compare_vectors vzero c2 = true) by (unfold c2; decide_test).
  assert (A3 : compare_vectors vzero c3 = true) by (unfold c3; decide_test).
  assert (A4 : compare_vectors vzero c4 = true) by (unfold c4; decide_test).
  assert (B1 : compare_vectors c1 vzero = false) by (unfold c1; decide_test).
  assert (B2 : compare_vectors c2 vzero = false) by (unfold c2; decide_test).
  assert (B3 : compare_vectors c3 vzero = false) by (unfold c3; decide_test).
  assert (B4 : compare_vectors c4 vzero = false) by (unfold c4; decide_test).
  assert (D1 : compare_vectors c1 c2 = true) by (unfold c1, c2; decide_test).
  assert (D2 : compare_vectors c3 c1 = false) by (unfold c1, c3; decide_test).
  assert (D3 : compare_vectors c1 c3 = true) by (unfold c1, c3; decide_test).
  assert (D4 : compare_vectors c3 c2 = false) by (unfold c2, c3; decide_test).
  assert (D5 : compare_vectors c2 c3 = true) by (unfold c2, c3; decide_test).
  assert (F1 : compare_vectors c4 c1 = false) by (unfold c1, c4; decide_test).
  assert (F2 : compare_vectors c1 c4 = true) by (unfold c1, c4; decide_test).
  assert (F3 : compare_vectors c4 c2 = false) by (unfold c2, c4; decide_test).
  assert (F4 : compare_vectors c2 c4 = true) by (unfold c2, c4; decide_test).
  assert (F5 : compare_vectors c4 c3 = false) by (unfold c3, c4; decide_test).
  assert (F6 : compare_vectors c3 c4 = true) by (unfold c3, c4; decide_test).
  assert (P1 : parallelAxes elbow0 elbow1 = true) by (unfold elbow0, elbow1; decide_test).
  assert (P2 : parallelAxes elbow1 elbow1 = true) by (unfold elbow1; decide_test).
  assert (P3 : parallelAxes elbow1 elbow0 = true) by (unfold elbow0, elbow1; decide_test).
  assert (L0 : liesOnAxis elbow1 vzero = false) by (unfold elbow1; decide_test).
  assert (S1 : searchPoints elbow (/ 2 :: / 2 :: rest) = Some ([vzero; c1; c2; c3; c4], rest)).
  { unfold searchPoints. cbn [exps elbow tool fp].
    assert (AX : axis_points [elbow0; elbow1] (pt_add vzero []) = [vzero; c2]).
    { unfold axis_points. cbn [fold_left tl]. change (is_rotation elbow0) with true. change (is_rotation elbow1) with true. cbv iota.
      change (pt_add vzero []) with [vzero]. unfold intersections. cbn [fold_left]. rewrite P1, P2.
      change (is_rotation elbow1) with true. cbn [andb negb]. change (e_origin elbow0) with vzero. change (e_origin elbow1) with c2.
      unfold pt_add. cbn [pt_insert]. rewrite C0. cbn [pt_insert]. rewrite B2, A2. reflexivity. }
    rewrite AX. cbn [random_points]. change (is_rotation elbow0) with true. change (is_rotation elbow1) with true. cbv iota. cbn [draw_point].
    replace (vadd (e_origin elbow0) (vscale (/ 2) (e_axis elbow0))) with c1 by (unfold c1, elbow0, vadd, vscale; cbn; f_equal; lra).
    cbn [pt_insert]. rewrite B1, A1, D1. cbn [option_map draw_point].
    replace (vadd (e_origin elbow1) (vscale (/ 2) (e_axis elbow1))) with c3 by (unfold c3, elbow1, vadd, vscale; cbn; f_equal; lra).
    cbn [pt_insert]. rewrite B3, A3, D2, D3, D4, D5. cbn [option_map]. change (V 2 0 0) with c4.
    unfold pt_add. cbn [pt_insert]. rewrite B4, A4, F1, F2, F3, F4, F5, F6. reflexivity. }
  rewrite S1. unfold build_with. cbn [option_map].
  assert (B : searchSolutions 6 [vzero; c1; c2; c3; c4] (exps elbow) = Returns ([PT elbow0 true false; PT elbow1 true false], elbow_steps)); [|rewrite B; reflexivity].
  unfold searchSolutions. cbn [exps elbow map nth]. cbn [search_loop]. unfold search_body at 1. cbn [sr_depth sr_p0 sr_p1 sr_terms sr_i0 sr_i1 sr_steps].
  assert (SI : simplify 0 vzero vzero (refresh [PT elbow0 false false; PT elbow1 false false]) = [PT elbow0 false false; PT elbow1 false false]).
  { unfold simplify, simplifyPK1. cbn [refresh map mark_leading t_known t_exp rev app find_last unknownTerm negb simp_left].
    unfold exp_at. cbn [map nth t_exp]. change (is_rotation elbow1) with true. rewrite L0. reflexivity. }
  rewrite SI. unfold trySolve at 1.
  cbn [count filter unknownNotSimplifiedTerm t_known t_simp negb andb length Nat.eqb Nat.ltb Nat.leb orb find_last exp_at map nth t_exp nth_error].
  change (is_rotation elbow1) with true. change (is_rotation elbow0) with true. change (is_translation elbow1) with false. unfold colinearAxes.
  rewrite P3. change (e_origin elbow0) with vzero. rewrite L0. reflexivity.
Qed.
