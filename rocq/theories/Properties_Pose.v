(** Poses of the candidates of the closed-form inverse kinematics (C16, C97) and the arms of the library's tests (C17). *)
From Coq Require Import QArith Reals Qreals List.
From Verif Require Import Kdl Screw Subproblems IkProblem IkSpec Builder BuilderSpec BuilderRun SubproblemSpec2 IkPoseSpec
  IkPoseFacts IkPoseFacts2 IkPoseFacts3 IkPoseFacts4 IkPoseArms IkPoseExamples.
Import ListNotations.
Open Scope R_scope.

(** C16: a candidate of a problem found reachable makes forward kinematics return the target, up to the
    tolerances of the steps: wherever the end is fixed, no point of the other end is farther from its place than the bound.
    When the builder reversed the formula the end seen as fixed is the tool. *)
Theorem C16_reached : forall fuel draws p p' ss rev r w x y target cands q,
  poe_ok p -> build fuel draws p = Returns (Some (p', ss, rev)) ->
  wrist_arm (exps p') r w x y -> ss = wrist_steps (exps p') r w x y -> rigid target ->
  ik_solve p' (map sub_step ss) rev target = Some (true, cands) -> In q cands ->
  exists f, evaluate p q = Some f /\ rigid f /\ forall a b c,
    let z := combination w (vsub x w) (vsub y w) a b c in
    dist (carried p' (if rev then finv f else f) z) (carried p' (if rev then finv target else target) z)
      <= wrist_bound (exps p') r w x y a b c.
Proof.
  exact (fun fuel draws p p' ss rev r w x y target cands q POK BD WA SS RT SV I =>
    built_sound fuel draws p p' ss rev r w x y target POK BD WA SS cands q RT SV I).
Qed.
Print Assumptions C16_reached.
(** C16: every point is one of those, so that the bound above says where the whole end is. *)
Theorem C16_every_point : forall e w x y, unit (e_axis e) -> on_axis e w -> on_axis e x -> w <> x -> ~ on_axis e y ->
  forall z, exists a b c, z = combination w (vsub x w) (vsub y w) a b c.
Proof. exact combinations. Qed.
Print Assumptions C16_every_point.
(** the arms without sliding joints of the tests of the library meet the first four hypotheses *)
Example C16_tested_arms : forall p, In p [teo_arm; teo_leg; irb120; puma] -> poe_ok (rp p) /\
  exists p' ss rev r w x y, build 1000 (map Q2R drawn) (rp p) = Returns (Some (p', ss, rev)) /\
    wrist_arm (exps p') r w x y /\ ss = wrist_steps (exps p') r w x y.
Proof. exact arms_built. Qed.
(** a problem of this kind found reachable *)
Example C16_reached_example : poe_ok xp /\ build 1000 (map Q2R x_draws) xp = Returns (Some (xp, wrist_steps (exps xp) xr xw xx xy, false)) /\
  wrist_arm (exps xp) xr xw xx xy /\ xw <> xx /\
  exists cands, ik_solve xp (map sub_step (wrist_steps (exps xp) xr xw xx xy)) false xt = Some (true, cands) /\ In (repeat 0 6) cands.
Proof. exact (conj x_ok (conj x_built (conj x_arm (conj x_apart x_reachable)))). Qed.

(** C16: conversely, the joint values of a regular pose are among the candidates for that pose. *)
Theorem C16_found : forall fuel draws p p' ss rev r w x y target q,
  poe_ok p -> build fuel draws p = Returns (Some (p', ss, rev)) ->
  wrist_arm (exps p') r w x y -> ss = wrist_steps (exps p') r w x y ->
  evaluate p q = Some target -> regular (exps p') r w x (if rev then rev_neg q else q) ->
  exists flag cands, ik_solve p' (map sub_step ss) rev target = Some (flag, cands) /\ In q cands.
Proof.
  exact (fun fuel draws p p' ss rev r w x y target q POK BD WA SS EV RG =>
    built_found fuel draws p p' ss rev r w x y target POK BD WA SS q EV RG).
Qed.
Print Assumptions C16_found.
Example C16_found_example : regular (exps xp) xr xw xx xq /\ exists f, evaluate xp xq = Some f.
Proof. exact (conj x_regular (ex_intro _ _ eq_refl)). Qed.

(** C16: these problems are always answered: no step runs into a division by zero. *)
Theorem C16_defined : forall fuel draws p p' ss rev r w x y target,
  poe_ok p -> build fuel draws p = Returns (Some (p', ss, rev)) ->
  wrist_arm (exps p') r w x y -> ss = wrist_steps (exps p') r w x y ->
  exists flag cands, ik_solve p' (map sub_step ss) rev target = Some (flag, cands).
Proof. exact built_defined. Qed.
Print Assumptions C16_defined.

(** C15: a result is returned also when the first step is only defined before anything has moved. *)
Theorem C15_total_first : forall p reversed target s ids ss,
  poe_ok p -> steps_ok (length (exps p)) ((s, ids) :: ss) ->
  (forall rhs, st_solve s rhs fid <> None) -> (forall s' ids' rhs h, In (s', ids') ss -> st_solve s' rhs h <> None) ->
  exists flag cands, ik_solve p (map fst ((s, ids) :: ss)) reversed target = Some (flag, cands).
Proof. exact solve_total_first. Qed.
Print Assumptions C15_total_first.
Example C15_total_first_example : exists s ids ss, problem_steps (wrist_steps (exps xp) xr xw xx xy) = (s, ids) :: ss /\ steps_ok 6 ((s, ids) :: ss) /\
  (forall rhs, st_solve s rhs fid <> None) /\ (forall s' ids' rhs h, In (s', ids') ss -> st_solve s' rhs h <> None).
Proof. exact (wrist_safe x0 x1 x2 x3 x4 x5 xt xr xw xx xy x_ok x_arm). Qed.

(** C97: what the flag guarantees for any sequence of steps: each point at which one or two rotations aim is
    where the target wants it, up to the tolerance of the step. *)
Theorem C97_points_partial : forall p reversed target ss cands q,
  poe_ok p -> rigid target -> steps_ok (length (exps p)) (problem_steps ss) -> in_order p (problem_steps ss) -> ss <> [] ->
  ik_solve p (map sub_step ss) reversed target = Some (true, cands) -> In q cands ->
  exists f, evaluate p (if reversed then rev_neg q else q) = Some f /\ rigid f /\
    forall pre s post x, ss = pre ++ s :: post -> aims (exps p) (concat (map sub_ids pre)) s x ->
      dist (carried p f x) (carried p (if reversed then finv target else target) x) <= allowance s (arm_length p reversed q s x).
Proof. exact (fun p reversed target ss cands q POK RT OK IO NE SV I => points p reversed target POK ss cands q RT OK IO NE SV I). Qed.
Print Assumptions C97_points_partial.
Example C97_points_example : poe_ok mast_p /\ rigid flipped /\
  (steps_ok 1 (problem_steps [SPK1 0 mast_e (V 1 0 0)]) /\ in_order mast_p (problem_steps [SPK1 0 mast_e (V 1 0 0)]) /\
   aims (exps mast_p) [] (SPK1 0 mast_e (V 1 0 0)) (V 1 0 0)) /\
  exists cands q f, ik_solve mast_p (map sub_step [SPK1 0 mast_e (V 1 0 0)]) false flipped = Some (true, cands) /\ In q cands /\
    evaluate mast_p q = Some f /\ f <> flipped.
Proof. exact (conj mast_ok (conj flipped_rigid (conj mast_steps mast_bad))). Qed.

(** C97: it does not guarantee the pose: with one joint the only point aimed at is in place while the tool is
    upside down. *)
Theorem C97_pose_refuted : exists p fuel draws ss target cands q f,
  poe_ok p /\ rigid target /\ build fuel draws p = Returns (Some (p, ss, false)) /\
  ik_solve p (map sub_step ss) false target = Some (true, cands) /\ In q cands /\
  evaluate p q = Some f /\ f <> target.
Proof. exact mast_refutes. Qed.
Print Assumptions C97_pose_refuted.

(** C17: for each robot of the tests of the library the builder returns a problem with as many
    candidates as the test expects. *)
Theorem C17_tested_arms : forall p n,
  In (p, n) [(irb120, 8); (puma, 8); (stanford, 8); (irb910sc, 2); (irb6620lx, 4); (teo_arm, 8); (teo_leg, 8)]%nat ->
  exists p' ss rev, build 1000 (map Q2R drawn) (rp p) = Returns (Some (p', ss, rev)) /\ computeSolutions (map sub_step ss) = n.
Proof. exact arms_counted. Qed.
Print Assumptions C17_tested_arms.
