(** C17: the search of the sequence of subproblems.  Statements only. *)
From Coq Require Import Reals List Permutation.
From Verif Require Import Kdl Screw Subproblems IkProblem Builder BuilderSpec BuilderFacts3 BuilderExamples BuilderExamples2.
Import ListNotations.
Open Scope R_scope.

(** C17: the steps of a problem that is returned assign every joint of the formula once, and
    each was accepted by the geometric test of its subproblem; the formula is the given one,
    or its inverse if the problem is marked as reversed. *)
Theorem C17_complete : forall fuel draws p p' ss rev,
  build fuel draws p = Returns (Some (p', ss, rev)) ->
  p' = (if rev then reverseSelf p else p) /\
  Permutation (concat (map sub_ids ss)) (seq 0 (length (exps p))) /\ Forall (accepted (exps p')) ss.
Proof. exact build_complete_drawn. Qed.
Print Assumptions C17_complete.
Example C17_complete_example : build 6 [/ 2; / 2] elbow = Returns (Some (elbow, elbow_steps, false)) /\
  build 5 [/ 2] gantry = Returns (Some (gantry, gantry_steps, false)).
Proof. exact (conj (elbow_built []) (proj2 (gantry_built [] None))). Qed.

(** C17: once its random points are drawn the search ends, without leaving its vectors; it
    returns a problem or null. *)
Theorem C17_total : forall draws p pts d pts' d',
  searchPoints p draws = Some (pts, d) -> searchPoints (reverseSelf p) d = Some (pts', d') ->
  exists n, forall fuel, (n <= fuel)%nat -> exists r, build fuel draws p = Returns r.
Proof. exact build_total_drawn. Qed.
Print Assumptions C17_total.
Example C17_total_example : searchPoints spindle [/ 2; / 2] = Some ([vzero; V 0 0 (/ 2)], [/ 2]) /\
  searchPoints (reverseSelf spindle) [/ 2] = Some ([vzero; V 0 0 (/ 2)], []).
Proof. exact spindle_case. Qed.

(** C17: each step determines its joints: what lies to the left is known or keeps the second
    point, what lies to the right is known or keeps the first.  Missing: steps with one point
    in formulas with sliding joints, for which it is false (next theorem). *)
Theorem C17_justified_partial : forall fuel draws p p' ss rev,
  build fuel draws p = Returns (Some (p', ss, rev)) ->
  forall pre s post, ss = pre ++ s :: post -> no_translation (exps p) \/ two_points s ->
    justified (exps p') (concat (map sub_ids pre)) s.
Proof. exact build_justified_drawn. Qed.
Print Assumptions C17_justified_partial.
Example C17_justified_partial_example :
  build 6 [/ 2; / 2] elbow = Returns (Some (elbow, elbow_steps, false)) /\ no_translation (exps elbow).
Proof. exact (conj (elbow_built []) (Forall_cons elbow0 eq_refl (Forall_cons elbow1 eq_refl (Forall_nil _)))). Qed.

(** C17, the general form is false: for two sliders and a rotary joint in one plane the first
    step is not justified, and a pose that the arm reaches is reached by no candidate. *)
Theorem C17_justified_refuted : exists p q target fuel draws ss flag cands,
  poe_ok p /\ evaluate p q = Some target /\
  build fuel draws p = Returns (Some (p, ss, false)) /\
  (exists s post, ss = s :: post /\ ~ justified (exps p) [] s) /\
  ik_solve p (map sub_step ss) false target = Some (flag, cands) /\
  forall q', In q' cands -> evaluate p q' <> Some target.
Proof. exact gantry_counterexample. Qed.
Print Assumptions C17_justified_refuted.

(** C17: null is returned, whatever is drawn, for one rotary joint when the origin and the
    tool are on its axis: no point to aim at is found. *)
Theorem C17_null : forall e t fuel draws r, e_motion e = ROTATION -> unit (e_axis e) ->
  rigid t -> liesOnAxis e vzero = true -> liesOnAxis e (fp t) = true ->
  (let e' := changeBase e (finv t) in liesOnAxis e' vzero = true /\ liesOnAxis e' (fp (finv t)) = true) ->
  build fuel draws (P [e] t) = Returns r -> r = None.
Proof. exact one_joint_null. Qed.
Print Assumptions C17_null.
Example C17_null_example : exists fuel, build fuel [/ 2; / 2] spindle = Returns None.
Proof. exact spindle_null. Qed.
