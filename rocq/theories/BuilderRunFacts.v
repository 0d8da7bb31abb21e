(** The search on rational numbers is the search of the model. *)
From Coq Require Import QArith Reals Qreals List Bool Arith Lra Lia.
From Verif Require Import Kdl KdlFacts Screw Subproblems Builder BuilderRun.
Import ListNotations.
Open Scope R_scope.
Local Notation S := Datatypes.S.

Lemma r_red : forall q, Q2R (Qred q) = Q2R q. Proof. intro. apply Qeq_eqR, Qred_correct. Qed.
Lemma r_0 : Q2R 0 = 0. Proof. unfold Q2R; cbn; lra. Qed.
Lemma r_ltb : forall a b, Rltb (Q2R a) (Q2R b) = qltb a b.
Proof.
  intros a b. unfold Rltb, qltb. destruct (Rlt_dec _ _) as [H|H]; symmetry.
  - apply Rlt_Qlt in H. apply Z.ltb_lt. exact H.
  - apply Z.ltb_ge. apply Z.nlt_ge. intro L. apply H. apply Qlt_Rlt. exact L.
Qed.
Lemma r_eps : Q2R qeps = kdl_eps. Proof. unfold Q2R, qeps, kdl_eps; cbn; lra. Qed.
Lemma r_equal : forall a b, Equal (Q2R a) (Q2R b) = qEqual a b.
Proof. intros. unfold Equal, qEqual. rewrite <- r_eps, <- Q2R_minus, <- Q2R_opp, !r_ltb. reflexivity. Qed.
Lemma rv_red : forall v, rv (qred v) = rv v. Proof. intros. unfold rv, qred; cbn. now rewrite !r_red. Qed.
Lemma rv_zero : rv qzero = vzero. Proof. unfold rv, qzero, vzero; cbn [qx qy qz]. now rewrite r_0. Qed.
Lemma rv_add : forall a b, rv (qadd a b) = vadd (rv a) (rv b). Proof. intros. unfold rv, qadd, vadd; cbn. now rewrite !Q2R_plus. Qed.
Lemma rv_sub : forall a b, rv (qsub a b) = vsub (rv a) (rv b). Proof. intros. unfold rv, qsub, vsub; cbn. now rewrite !Q2R_minus. Qed.
Lemma rv_scale : forall k a, rv (qscale k a) = vscale (Q2R k) (rv a). Proof. intros. unfold rv, qscale, vscale; cbn. now rewrite !Q2R_mult. Qed.
Lemma r_dot : forall a b, Q2R (qdot a b) = dot (rv a) (rv b). Proof. intros. unfold rv, qdot, dot; cbn. now rewrite !Q2R_plus, !Q2R_mult. Qed.
Lemma rv_cross : forall a b, rv (qcross a b) = cross (rv a) (rv b).
Proof. intros. unfold rv, qcross, cross; cbn. now rewrite !Q2R_minus, !Q2R_mult. Qed.
Lemma r_equalv : forall a b, EqualV (rv a) (rv b) = qEqualV a b.
Proof. intros. unfold EqualV, qEqualV, rv; cbn [vx vy vz]. now rewrite !r_equal. Qed.

Lemma r_lies : forall e p, liesOnAxis (re e) (rv p) = qliesOnAxis e p.
Proof. intros. unfold liesOnAxis, qliesOnAxis, re; cbn [e_axis e_origin]. now rewrite <- rv_sub, <- rv_cross, <- rv_zero, r_equalv. Qed.
Lemma r_parallel : forall a b, parallelAxes (re a) (re b) = qparallelAxes a b.
Proof. intros. unfold parallelAxes, qparallelAxes, re; cbn [e_axis e_origin]. now rewrite <- rv_cross, <- rv_zero, r_equalv. Qed.
Lemma r_perpendicular : forall a b, perpendicularAxes (re a) (re b) = qperpendicularAxes a b.
Proof. intros. unfold perpendicularAxes, qperpendicularAxes, re; cbn [e_axis e_origin]. now rewrite <- r_dot, <- r_0, r_equal. Qed.
Lemma r_colinear : forall a b, colinearAxes (re a) (re b) = qcolinearAxes a b.
Proof. intros. unfold colinearAxes, qcolinearAxes. rewrite r_parallel. change (e_origin (re b)) with (rv (q_origin b)). now rewrite r_lies. Qed.
Lemma r_intersecting : forall a b, intersectingAxes (re a) (re b) = option_map rv (qintersectingAxes a b).
Proof.
  intros a b. unfold intersectingAxes, qintersectingAxes, re; cbn [e_axis e_origin].
  rewrite <- !rv_cross, <- !rv_sub, <- !rv_cross, <- !r_dot. set (c := qcross _ _). unfold pow2, norm.
  rewrite sqrt_sqrt by (unfold dot; nra). rewrite <- r_dot. set (d := qdot c c).
  assert (Z : Reqb (Q2R d) 0 = Qeq_bool d 0).
  { unfold Reqb. destruct (Req_EM_T _ _) as [E|E]; symmetry.
    - apply Qeq_bool_iff. apply eqR_Qeq. now rewrite r_0.
    - apply not_true_is_false. intro T. apply E. rewrite <- r_0. apply Qeq_eqR, Qeq_bool_iff, T. }
  rewrite Z. destruct (Qeq_bool d 0) eqn:B; [reflexivity|].
  assert (ND : ~ (d == 0)%Q) by (intro Q; apply Qeq_bool_iff in Q; congruence).
  rewrite <- !Q2R_div by exact ND. rewrite <- !rv_scale, <- !rv_add, <- !(rv_red (qadd _ _)), r_equalv.
  destruct (qEqualV _ _); reflexivity.
Qed.
Lemma r_rot : forall e, is_rotation (re e) = qis_rotation e. Proof. reflexivity. Qed.
Lemma r_trans : forall e, is_translation (re e) = qis_translation e. Proof. reflexivity. Qed.
Lemma r_planar : forall a b, planarMovement (re a) (re b) = qplanarMovement a b.
Proof. intros. unfold planarMovement, qplanarMovement. now rewrite !r_rot, r_parallel, r_perpendicular. Qed.
Lemma r_normal : forall a b, normalPlaneMovement (re a) (re b) = qnormalPlaneMovement a b.
Proof. intros. unfold normalPlaneMovement, qnormalPlaneMovement. now rewrite !r_rot, r_parallel, r_perpendicular. Qed.

(** points *)
Lemma r_compare : forall a b, compare_vectors (rv a) (rv b) = qcompare_vectors a b.
Proof. intros. unfold compare_vectors, qcompare_vectors, rv; cbn [vx vy vz]. now rewrite !r_equal, !r_ltb. Qed.
Lemma r_insert : forall x l, pt_insert (rv x) (map rv l) = option_map (map rv) (qpt_insert x l).
Proof.
  induction l as [|y l IH]; [reflexivity|]. cbn [pt_insert qpt_insert map]. rewrite !r_compare.
  destruct (qcompare_vectors x y); [reflexivity|]. destruct (qcompare_vectors y x); [|reflexivity].
  rewrite IH. now destruct (qpt_insert x l).
Qed.
Lemma r_add : forall x l, pt_add (rv x) (map rv l) = map rv (qpt_add x l).
Proof. intros. unfold pt_add, qpt_add. rewrite r_insert. now destruct (qpt_insert x l). Qed.
Lemma r_intersections : forall e os l, intersections (re e) (map re os) (map rv l) = map rv (qintersections e os l).
Proof.
  intros e os. unfold intersections, qintersections. induction os as [|o os IH]; intro l; [reflexivity|]. cbn [map fold_left].
  rewrite r_rot, r_parallel, r_colinear, r_intersecting, <- IH. f_equal.
  destruct (_ && _); [|reflexivity]. destruct (qintersectingAxes e o); [|reflexivity]. apply r_add.
Qed.
Lemma r_axis_points : forall es l, axis_points (map re es) (map rv l) = map rv (qaxis_points es l).
Proof.
  intros es. unfold axis_points, qaxis_points. replace (tl (map re es)) with (map re (tl es)) by now destruct es. generalize (tl es) as os.
  induction es as [|e es IH]; intros os l; [reflexivity|]. cbn [map fold_left]. rewrite <- IH. f_equal. rewrite r_rot.
  destruct (qis_rotation e); [|reflexivity]. change (e_origin (re e)) with (rv (q_origin e)). now rewrite r_add, r_intersections.
Qed.
Definition rpair (x : list qvec * list Q) : list vec * list R := (map rv (fst x), map Q2R (snd x)).
Lemma r_draw : forall e ds l, draw_point (re e) (map Q2R ds) (map rv l) = option_map rpair (qdraw_point e ds l).
Proof.
  intros e ds. induction ds as [|f ds IH]; intro l; [reflexivity|]. cbn [draw_point qdraw_point map].
  replace (vadd (e_origin (re e)) (vscale (Q2R f) (e_axis (re e)))) with (rv (qred (qadd (q_origin e) (qscale f (q_axis e)))))
    by (now rewrite rv_red, rv_add, rv_scale).
  rewrite r_insert. destruct (qpt_insert _ l); [reflexivity|]. apply IH.
Qed.
Lemma r_random : forall es ds l, random_points (map re es) (map Q2R ds) (map rv l) = option_map rpair (qrandom_points es ds l).
Proof.
  intros es. induction es as [|e es IH]; intros ds l; [reflexivity|]. cbn [random_points qrandom_points map]. rewrite r_rot.
  destruct (qis_rotation e); [|apply IH]. rewrite r_draw. destruct (qdraw_point e ds l) as [[l' ds']|]; [|reflexivity]. apply IH.
Qed.
Lemma r_points : forall p ds, searchPoints (rp p) (map Q2R ds) = option_map rpair (qsearchPoints p ds).
Proof.
  intros p ds. unfold searchPoints, qsearchPoints. cbn [exps rp tool].
  replace (pt_add vzero []) with (map rv (qpt_add qzero [])) by (cbn; now rewrite rv_zero).
  rewrite r_axis_points, r_random. destruct (qrandom_points _ _ _) as [[l ds']|]; [|reflexivity]. cbn [option_map rpair fst snd].
  change (fp (rf (q_tool p))) with (rv (q_p (q_tool p))). now rewrite r_add.
Qed.

(** terms *)
Lemma r_count : forall f g ts, (forall t, f (rt t) = g t) -> count f (map rt ts) = qcount g ts.
Proof. intros f g ts H. unfold count, qcount. induction ts as [|t ts IH]; [reflexivity|]. cbn [map filter]. rewrite H. destruct (g t); cbn [length]; now rewrite IH. Qed.
Lemma r_first : forall f g ts, (forall t, f (rt t) = g t) -> find_first f (map rt ts) = qfind_first g ts.
Proof. intros f g ts H. induction ts as [|t ts IH]; [reflexivity|]. cbn [map find_first qfind_first]. now rewrite H, IH. Qed.
Lemma r_last : forall f g ts, (forall t, f (rt t) = g t) -> find_last f (map rt ts) = qfind_last g ts.
Proof. intros f g ts H. induction ts as [|t ts IH]; [reflexivity|]. cbn [map find_last qfind_last]. now rewrite H, IH. Qed.
Lemma r_change : forall f g i ts, (forall t, f (rt t) = rt (g t)) -> change f i (map rt ts) = map rt (qchange g i ts).
Proof.
  intros f g i ts H. revert i. induction ts as [|t ts IH]; intro i; [now destruct i|]. destruct i; cbn [map change qchange]; [now rewrite H|now rewrite IH].
Qed.
Lemma r_known : forall t, set_known (rt t) = rt (qset_known t). Proof. reflexivity. Qed.
Lemma r_simp : forall t, set_simp (rt t) = rt (qset_simp t). Proof. reflexivity. Qed.
Lemma r_exp_at : forall ts i, exp_at (map rt ts) i = re (qexp_at ts i).
Proof.
  intros. unfold exp_at, qexp_at. rewrite map_map. cbn [t_exp rt].
  replace (E ROTATION vzero vzero) with (re (QE ROTATION qzero qzero)) by (unfold re; cbn [q_motion q_axis q_origin]; now rewrite rv_zero).
  rewrite <- (map_map k_exp re). apply map_nth.
Qed.
Lemma r_leading : forall ts, mark_leading (map rt ts) = map rt (qmark_leading ts).
Proof. induction ts as [|t ts IH]; [reflexivity|]. cbn [map mark_leading qmark_leading]. cbn [rt t_known]. destruct (k_known t); [|reflexivity]. cbn [map]. now rewrite IH. Qed.
Lemma r_refresh : forall ts, refresh (map rt ts) = map rt (qrefresh ts).
Proof.
  intros. unfold refresh, qrefresh.
  replace (map (fun t => PT (t_exp t) (t_known t) false) (map rt ts)) with (map rt (map (fun t => QT (k_exp t) (k_known t) false) ts)) by (rewrite !map_map; reflexivity).
  now rewrite r_leading, <- map_rev, r_leading, <- map_rev.
Qed.
Lemma r_left : forall n p ts, simp_left n (rv p) (map rt ts) = map rt (qsimp_left n p ts).
Proof.
  induction n as [|n IH]; intros p ts; [reflexivity|]. cbn [simp_left qsimp_left]. rewrite r_exp_at, r_rot, r_lies.
  destruct (_ && _); [|reflexivity]. rewrite (r_change set_simp qset_simp) by exact r_simp. apply IH.
Qed.
Lemma r_right : forall k i p ts, simp_right k i (rv p) (map rt ts) = map rt (qsimp_right k i p ts).
Proof.
  induction k as [|k IH]; intros i p ts; [reflexivity|]. cbn [simp_right qsimp_right]. rewrite r_exp_at, r_rot, r_lies.
  destruct (_ && _); [|reflexivity]. rewrite (r_change set_simp qset_simp) by exact r_simp. apply IH.
Qed.
Lemma r_pk1 : forall p ts, simplifyPK1 (rv p) (map rt ts) = map rt (qsimplifyPK1 p ts).
Proof.
  intros. unfold simplifyPK1, qsimplifyPK1. rewrite (r_last unknownTerm qunknownTerm) by reflexivity.
  destruct (qfind_last _ ts); [apply r_left|reflexivity].
Qed.
Lemma r_pk3 : forall p ts, simplifyPK3 (rv p) (map rt ts) = map rt (qsimplifyPK3 p ts).
Proof.
  intros. unfold simplifyPK3, qsimplifyPK3. rewrite (r_first unknownTerm qunknownTerm) by reflexivity.
  destruct (qfind_first _ ts); [rewrite map_length; apply r_right|reflexivity].
Qed.
Lemma r_plane_right : forall ts a i, plane_right (map rt ts) a i = qplane_right ts a i.
Proof. intros ts a. induction i as [|i IH]; cbn [plane_right qplane_right]; rewrite !r_exp_at, r_normal, r_planar, ?IH; reflexivity. Qed.
Lemma r_plane_left : forall ts b k i, plane_left (map rt ts) b k i = qplane_left ts b k i.
Proof. intros ts b. induction k as [|k IH]; intro i; cbn [plane_left qplane_left]; rewrite !r_exp_at, r_normal, r_planar, ?IH; reflexivity. Qed.
Lemma r_range : forall lo len ts, simp_range lo len (map rt ts) = map rt (qsimp_range lo len ts).
Proof.
  intros lo len. unfold simp_range, qsimp_range. generalize (seq lo len). intro l. induction l as [|i l IH]; intro ts; [reflexivity|].
  cbn [fold_left]. rewrite (r_change set_simp qset_simp) by exact r_simp. apply IH.
Qed.
Lemma r_pg1 : forall ts, simplifyPG1 (map rt ts) = map rt (qsimplifyPG1 ts).
Proof.
  intros. unfold simplifyPG1, qsimplifyPG1. rewrite (r_first _ qunknownNotSimplifiedTerm), (r_last _ qunknownNotSimplifiedTerm) by reflexivity.
  destruct (qfind_first _ ts) as [a|]; [|reflexivity]. destruct (qfind_last _ ts) as [b|]; [|reflexivity]. cbv zeta.
  destruct (Nat.leb b a); [reflexivity|]. rewrite !r_exp_at, !r_trans, r_plane_right, r_plane_left, !r_range.
  destruct (qis_translation _); [now destruct (qplane_right _ _ _)|]. destruct (qis_translation _); [now destruct (qplane_left _ _ _)|reflexivity].
Qed.
Lemma r_exists : forall f g ts, (forall t, f (rt t) = g t) -> existsb f (map rt ts) = existsb g ts.
Proof. intros f g ts H. induction ts as [|t ts IH]; [reflexivity|]. cbn [map existsb]. now rewrite H, IH. Qed.
Lemma r_simplify : forall d p0 p1 ts, simplify d (rv p0) (rv p1) (map rt ts) = map rt (qsimplify d p0 p1 ts).
Proof.
  intros. unfold simplify, qsimplify. rewrite r_pk1. cbv zeta. destruct (Nat.eqb d 1); [apply r_pk3|].
  rewrite (r_exists _ (fun t => qis_translation (k_exp t))) by reflexivity. destruct (existsb _ _); [apply r_pg1|reflexivity].
Qed.

(** the search *)
Definition ratt (a : qattempt) : attempt := match a with QSolved s ts => Solved (rs s) (map rt ts) | QNotYet => NotYet | QInvalid => Invalid end.
Lemma r_try : forall d p0 p1 ts, trySolve d (rv p0) (rv p1) (map rt ts) = ratt (qtrySolve d p0 p1 ts).
Proof.
  intros. unfold trySolve, qtrySolve. rewrite (r_count _ qunknownNotSimplifiedTerm) by reflexivity. cbv zeta.
  destruct (_ || _); [reflexivity|]. rewrite (r_last _ qunknownNotSimplifiedTerm) by reflexivity.
  destruct (qfind_last _ ts) as [l|]; [|reflexivity]. rewrite !r_exp_at, !r_rot, !r_trans, !r_lies.
  rewrite (r_exists _ qknownNotSimplifiedTerm) by reflexivity. rewrite !(r_change set_known qset_known) by exact r_known.
  destruct (Nat.eqb _ 1).
  - destruct (Nat.eqb d 0).
    + destruct (_ && _); [reflexivity|]. now destruct (qis_translation _).
    + destruct (Nat.eqb d 1); [|reflexivity]. destruct (existsb _ ts); [reflexivity|]. destruct (_ && _); [reflexivity|]. now destruct (qis_translation _).
  - destruct l as [|l]; [reflexivity|]. rewrite nth_error_map. destruct (nth_error ts l) as [t0|]; [|reflexivity]. cbn [option_map].
    change (unknownNotSimplifiedTerm (rt t0)) with (qunknownNotSimplifiedTerm t0). destruct (negb _); [reflexivity|].
    rewrite !r_exp_at, !r_rot, !r_trans, !r_parallel, r_colinear, r_intersecting.
    destruct (Nat.eqb d 0); [|reflexivity]. rewrite !(r_change set_known qset_known) by exact r_known.
    destruct (qis_rotation _ && _ && _); [|cbn [option_map]; destruct (_ && _); [reflexivity|]; now destruct (_ && _)].
    destruct (qintersectingAxes _ _); cbn [option_map]; [reflexivity|]. destruct (_ && _); [reflexivity|]. now destruct (_ && _).
Qed.
Lemma r_nth : forall i l, nth i (map rv l) vzero = rv (nth i l qzero).
Proof. intros. rewrite <- rv_zero. apply map_nth. Qed.
Lemma r_advance : forall pts st, advance (map rv pts) (rst st) = rst (qadvance pts st).
Proof.
  intros. unfold advance, qadvance. rewrite map_length, !r_nth. cbn [rst sr_i0 sr_i1 sr_p0 sr_p1 sr_depth sr_terms sr_steps]. cbv zeta.
  destruct (Nat.eqb _ _); [|reflexivity]. destruct (Nat.eqb _ _); [reflexivity|]. now destruct (Nat.eqb _ _).
Qed.
Lemma r_body : forall pts st, search_body (map rv pts) (rst st) = option_map rst (qsearch_body pts st).
Proof.
  intros. unfold search_body, qsearch_body. cbn [rst sr_i0 sr_i1 sr_p0 sr_p1 sr_depth sr_terms sr_steps].
  rewrite r_refresh, r_simplify, r_try. cbv zeta. destruct (qtrySolve _ _ _ _) as [s ts| |]; cbn [ratt option_map]; [| |reflexivity].
  - unfold rst; cbn [qs_i0 qs_i1 qs_p0 qs_p1 qs_depth qs_terms qs_steps]. now rewrite r_nth, map_app.
  - f_equal. apply (r_advance pts (QS _ _ _ _ _ _ _)).
Qed.
Lemma r_loop : forall fuel pts st, search_loop fuel (map rv pts) (rst st) = rout rst (qsearch_loop fuel pts st).
Proof.
  induction fuel as [|fuel IH]; intros pts st; [reflexivity|]. cbn [search_loop qsearch_loop]. rewrite r_body.
  destruct (qsearch_body pts st) as [st'|]; [|reflexivity]. cbn [option_map]. change (sr_depth (rst st')) with (qs_depth st').
  change (sr_terms (rst st')) with (map rt (qs_terms st')). rewrite (r_count unknownTerm qunknownTerm) by reflexivity.
  destruct (_ && _); [apply IH|reflexivity].
Qed.
Definition rfound (x : list qterm * list qsubp) : list pterm * list sub := (map rt (fst x), map rs (snd x)).
Lemma r_search : forall fuel pts es, searchSolutions fuel (map rv pts) (map re es) = rout rfound (qsearchSolutions fuel pts es).
Proof.
  intros. unfold searchSolutions, qsearchSolutions. rewrite r_nth, map_map. cbv zeta.
  match goal with |- match search_loop _ _ ?a with _ => _ end = rout _ (match qsearch_loop _ _ ?b with _ => _ end) => replace a with (rst b) end.
  - rewrite r_loop. now destruct (qsearch_loop _ _ _).
  - unfold rst; cbn [qs_i0 qs_i1 qs_p0 qs_p1 qs_depth qs_terms qs_steps]. now rewrite map_map.
Qed.

(** the reversed formula *)
Lemma r_mv : forall f v, rv (qmv f v) = mv (fM (rf f)) (rv v).
Proof. intros. unfold qmv. rewrite rv_red. unfold rv at 1. cbn [qx qy qz]. now rewrite !r_dot. Qed.
Lemma r_fapp : forall f v, rv (qfapp f v) = fapp (rf f) (rv v).
Proof. intros. unfold qfapp. rewrite rv_red, rv_add, r_mv. reflexivity. Qed.
Lemma r_finv : forall f, rf (qfinv f) = finv (rf f).
Proof.
  intros f. unfold qfinv, finv. cbn [rf fM fp]. unfold rf at 1. cbn [qtransposed q_r0 q_r1 q_r2 q_p qx qy qz].
  rewrite rv_scale, r_mv. replace (Q2R (-1)) with (-1) by (unfold Q2R; cbn; lra). apply f_equal.
  cbn [rf fM qtransposed q_r0 q_r1 q_r2 qx qy qz]. apply vec_eq; cbn; ring.
Qed.
Lemma r_base : forall e h, re (qchangeBase e h) = changeBase (re e) (rf h).
Proof.
  intros. unfold changeBase, qchangeBase, re. cbn [e_motion e_axis e_origin q_motion q_axis q_origin]. rewrite r_mv.
  destruct (q_motion e); [now rewrite r_fapp|reflexivity].
Qed.
Lemma r_reverse : forall p, rp (qreverseSelf p) = reverseSelf (rp p).
Proof.
  intros. unfold reverseSelf, qreverseSelf, rp. cbn [exps tool q_exps q_tool]. rewrite r_finv, map_rev, !map_map. do 2 f_equal.
  apply map_ext. intro e. rewrite r_base, r_finv. reflexivity.
Qed.
Definition rbuilt (x : qpoe * list qsubp * bool) : poe * list sub * bool := (rp (fst (fst x)), map rs (snd (fst x)), snd x).
Lemma r_build_with : forall fuel a b p, build_with fuel (option_map (map rv) a) (option_map (map rv) b) (rp p) =
  rout (option_map rbuilt) (qbuild_with fuel a b p).
Proof.
  intros. unfold build_with, qbuild_with. destruct a as [a|]; [|reflexivity]. cbn [option_map rp exps]. rewrite r_search.
  destruct (qsearchSolutions _ _ _) as [[ts ss]| |]; [|reflexivity|reflexivity]. cbn [rout rfound fst snd].
  rewrite (r_count t_known k_known), map_length by reflexivity. destruct (Nat.eqb _ _); [reflexivity|]. cbv zeta.
  fold (rp p). change (P (map re (q_exps p)) (rf (q_tool p))) with (rp p). rewrite <- r_reverse.
  destruct b as [b|]; [|reflexivity]. cbn [option_map rp exps]. rewrite r_search.
  destruct (qsearchSolutions _ _ _) as [[ts' ss']| |]; [|reflexivity|reflexivity]. cbn [rout rfound fst snd].
  rewrite (r_count t_known k_known), map_length by reflexivity. destruct (Nat.eqb _ _); reflexivity.
Qed.

Theorem run_build : forall fuel draws p, build fuel (map Q2R draws) (rp p) = rout (option_map rbuilt) (qbuild fuel draws p).
Proof.
  intros. unfold build, qbuild. rewrite r_points. destruct (qsearchPoints p draws) as [[pts ds]|]; [|reflexivity].
  cbn [option_map rpair fst snd]. rewrite <- r_reverse, r_points.
  replace (option_map fst (option_map rpair (qsearchPoints (qreverseSelf p) ds))) with (option_map (map rv) (option_map fst (qsearchPoints (qreverseSelf p) ds)))
    by (now destruct (qsearchPoints (qreverseSelf p) ds) as [[]|]).
  apply (r_build_with fuel (Some pts)).
Qed.
