(** Proofs about the search of subproblems, with the points it finds itself. *)
From Coq Require Import Reals List Bool Arith Lia Lra Permutation.
From Verif Require Import Kdl KdlFacts Screw ScrewFacts Trig TrigFacts Subproblems IkProblem IkSpec Builder BuilderSpec BuilderFacts BuilderFacts2 BuilderExamples BuilderExamples2.
Import ListNotations.
Open Scope R_scope.
Local Notation S := Datatypes.S.

Lemma build_from : forall fuel draws p r, build fuel draws p = Returns r ->
  exists pts pts', build_with fuel pts pts' p = Returns r.
Proof. intros fuel draws p r. unfold build. destruct (searchPoints p draws) as [[pts d]|]; [eauto|discriminate]. Qed.

Theorem build_complete_drawn : forall fuel draws p p' ss rev,
  build fuel draws p = Returns (Some (p', ss, rev)) ->
  p' = (if rev then reverseSelf p else p) /\
  Permutation (concat (map sub_ids ss)) (seq 0 (length (exps p))) /\ Forall (accepted (exps p')) ss.
Proof. intros fuel draws p p' ss rev H. apply build_from in H. destruct H as (a & b & H). eapply build_complete; eassumption. Qed.

Theorem build_justified_drawn : forall fuel draws p p' ss rev,
  build fuel draws p = Returns (Some (p', ss, rev)) ->
  forall pre s post, ss = pre ++ s :: post -> no_translation (exps p) \/ two_points s ->
    justified (exps p') (concat (map sub_ids pre)) s.
Proof.
  intros fuel draws p p' ss rev H. destruct (build_complete_drawn _ _ _ _ _ _ H) as (E & _).
  apply build_from in H. destruct H as (a & b & H). apply build_justified in H.
  intros pre s post X [Y|Y]; apply (H pre s post X); [left|now right].
  rewrite E. destruct rev; [|exact Y]. unfold reverseSelf, no_translation in *. cbn [exps]. rewrite Forall_forall in *.
  intros e I. apply in_rev in I. apply in_map_iff in I. destruct I as (e0 & <- & I). cbn. now apply Y.
Qed.

Theorem build_total_drawn : forall draws p pts d pts' d',
  searchPoints p draws = Some (pts, d) -> searchPoints (reverseSelf p) d = Some (pts', d') ->
  exists n, forall fuel, (n <= fuel)%nat -> exists r, build fuel draws p = Returns r.
Proof.
  intros draws p pts d pts' d' S1 S2. unfold build. rewrite S1, S2. cbn [option_map fst].
  exists ((length (exps p) + 1) * (length pts + length pts * length pts) + (length (exps p) + 1) * (length pts' + length pts' * length pts'))%nat.
  intros fuel L. apply build_total; [eapply points_nonempty; eassumption|eapply points_nonempty; eassumption| |]; lia.
Qed.

(** ** The sliders *)
Theorem gantry_counterexample : exists p q target fuel draws ss flag cands,
  poe_ok p /\ evaluate p q = Some target /\
  build fuel draws p = Returns (Some (p, ss, false)) /\
  (exists s post, ss = s :: post /\ ~ justified (exps p) [] s) /\
  ik_solve p (map sub_step ss) false target = Some (flag, cands) /\
  forall q', In q' cands -> evaluate p q' <> Some target.
Proof.
  destruct gantry_answers as (flag & cands & A).
  exists gantry, [0; 0; PI / 2], gantry_pose, 5%nat, [/ 2], gantry_steps, flag, cands.
  split; [split; [repeat constructor; unfold unit, g0, g1, g2, dot; cbn; ring|apply rigid_id]|].
  split; [apply gantry_pose_eq|]. split; [apply (gantry_built [] None)|].
  split; [eexists; eexists; split; [reflexivity|apply gantry_unjustified]|].
  split; [exact A|]. intros q' I. eapply gantry_missed; eassumption.
Qed.

(** ** A rotary joint with its tool on the axis *)
Definition spindle : poe := P [crank_axis] fid.
Lemma finv_fid : finv fid = fid.
Proof. rewrite <- (fmul_id_r (finv fid)). apply fmul_inv_l, rigid_id. Qed.
Lemma spindle_reversed : reverseSelf spindle = spindle.
Proof.
  unfold reverseSelf, spindle. cbn [exps tool map rev app]. rewrite finv_fid. f_equal. f_equal.
  unfold changeBase, crank_axis. cbn [e_motion e_axis e_origin]. rewrite fapp_id. unfold fid. cbn [fM]. now rewrite mv_id.
Qed.
Lemma spindle_points : forall rest, searchPoints spindle (/ 2 :: rest) = Some ([vzero; V 0 0 (/ 2)], rest).
Proof.
  intros rest. set (c1 := V 0 0 (/ 2)).
  assert (C0 : compare_vectors vzero vzero = false) by decide_test.
  assert (C1 : compare_vectors c1 vzero = false) by (unfold c1; decide_test).
  assert (C2 : compare_vectors vzero c1 = true) by (unfold c1; decide_test).
  unfold searchPoints. cbn [exps spindle tool fp].
  assert (AX : axis_points [crank_axis] (pt_add vzero []) = [vzero]).
  { unfold axis_points. cbn [fold_left tl]. change (is_rotation crank_axis) with true. cbv iota. change (pt_add vzero []) with [vzero].
    unfold intersections. cbn [fold_left]. change (e_origin crank_axis) with vzero. unfold pt_add. cbn [pt_insert]. rewrite C0. reflexivity. }
  rewrite AX. cbn [random_points]. change (is_rotation crank_axis) with true. cbv iota. cbn [draw_point].
  change (e_origin crank_axis) with vzero.
  replace (vadd vzero (vscale (/ 2) (e_axis crank_axis))) with c1 by (unfold c1, crank_axis, vadd, vscale; cbn; f_equal; lra).
  cbn [pt_insert]. rewrite C1, C2. cbn [option_map]. change (fp fid) with vzero. unfold pt_add. cbn [pt_insert]. rewrite C0. reflexivity.
Qed.
Lemma spindle_case : searchPoints spindle [/ 2; / 2] = Some ([vzero; V 0 0 (/ 2)], [/ 2]) /\
  searchPoints (reverseSelf spindle) [/ 2] = Some ([vzero; V 0 0 (/ 2)], []).
Proof. rewrite spindle_reversed. split; apply spindle_points. Qed.
Lemma spindle_null_from : exists n, forall fuel, (n <= fuel)%nat -> build fuel [/ 2; / 2] spindle = Returns None.
Proof.
  destruct (build_total_drawn _ _ _ _ _ _ (proj1 spindle_case) (proj2 spindle_case)) as (n & H).
  exists n. intros fuel L0. destruct (H fuel L0) as (r & E). rewrite E. f_equal. clear L0.
  assert (L : liesOnAxis crank_axis vzero = true) by (unfold crank_axis; decide_test).
  eapply (one_joint_null crank_axis fid fuel _ r); try exact E; try exact L; try reflexivity.
  - unfold unit, dot. cbn. ring.
  - apply rigid_id.
  - cbv zeta. assert (X : changeBase crank_axis (finv fid) = crank_axis).
    { rewrite finv_fid. unfold changeBase, crank_axis. cbn [e_motion e_axis e_origin]. rewrite fapp_id. unfold fid. cbn [fM]. now rewrite mv_id. }
    rewrite X, finv_fid. split; exact L.
Qed.
Lemma spindle_null : exists fuel, build fuel [/ 2; / 2] spindle = Returns None.
Proof. destruct spindle_null_from as (n & H). exists n. auto. Qed.
