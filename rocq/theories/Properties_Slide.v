(** Poses of the candidates of the closed-form inverse kinematics for arms with a sliding joint (C101, C102, C103). *)
From Coq Require Import QArith Reals Qreals List.
From Verif Require Import Kdl Screw Subproblems IkProblem IkSpec Builder BuilderSpec BuilderRun SubproblemSpec2 IkPoseSpec
  IkPoseArms IkPoseExamples SlideSpec SlideFacts4 SlideArms SlideExamples.
Import ListNotations.
Open Scope R_scope.

(** C101: two rotations that cross, a sliding joint and a wrist.  A candidate of a problem found reachable makes forward
    kinematics return the target, up to the tolerances of the steps: no point of the moving end is farther from its place
    than the bound.  When the builder reversed the formula the end seen as fixed is the tool.  [C16_every_point] says
    that every point is one of those of the bound. *)
Theorem C101_reached : forall fuel draws p p' ss rev r w x y target cands q,
  poe_ok p -> build fuel draws p = Returns (Some (p', ss, rev)) ->
  sliding_arm (exps p') r w x y -> ss = sliding_steps (exps p') r w x y -> rigid target ->
  ik_solve p' (map sub_step ss) rev target = Some (true, cands) -> In q cands ->
  exists f, evaluate p q = Some f /\ rigid f /\
    sliding_placed (exps p') r w x y (nth 2 (if rev then rev_neg q else q) 0)
      (carried p' (if rev then finv f else f)) (carried p' (if rev then finv target else target)).
Proof.
  exact (fun fuel draws p p' ss rev r w x y target cands q POK BD SA SS RT SV I =>
    sliding_built_sound fuel draws p p' ss rev target POK BD r w x y SA SS cands q RT SV I).
Qed.
Print Assumptions C101_reached.
(** the Stanford arm of the tests of the library meets the first four hypotheses *)
Example C101_tested_arm : poe_ok (rp stanford) /\ exists r w x y,
  build 1000 (map Q2R drawn) (rp stanford) = Returns (Some (rp stanford, sliding_steps (exps (rp stanford)) r w x y, false)) /\
  sliding_arm (exps (rp stanford)) r w x y.
Proof. exact stanford_built. Qed.
(** a problem of this kind found reachable *)
Example C101_reached_example : poe_ok sp /\ build 1000 (map Q2R x_draws) sp = Returns (Some (sp, sliding_steps (exps sp) xr xw xx xy, false)) /\
  sliding_arm (exps sp) xr xw xx xy /\
  exists cands, ik_solve sp (map sub_step (sliding_steps (exps sp) xr xw xx xy)) false xt = Some (true, cands) /\ cands <> [].
Proof. exact (conj s_ok (conj s_built (conj s_arm s_reachable))). Qed.
(** C101: conversely, the joint values of a regular pose are among the candidates for that pose. *)
Theorem C101_found : forall fuel draws p p' ss rev r w x y target q,
  poe_ok p -> build fuel draws p = Returns (Some (p', ss, rev)) ->
  sliding_arm (exps p') r w x y -> ss = sliding_steps (exps p') r w x y ->
  evaluate p q = Some target -> sliding_regular (exps p') r w x (if rev then rev_neg q else q) ->
  exists flag cands, ik_solve p' (map sub_step ss) rev target = Some (flag, cands) /\ In q cands.
Proof.
  exact (fun fuel draws p p' ss rev r w x y target q POK BD SA SS EV RG =>
    sliding_built_found fuel draws p p' ss rev target POK BD r w x y SA SS q EV RG).
Qed.
Print Assumptions C101_found.
Example C101_found_example : sliding_regular (exps sp) xr xw xx sq /\ exists f, evaluate sp sq = Some f.
Proof. exact (conj s_regular (ex_intro _ _ eq_refl)). Qed.
(** C101: these problems are always answered: no step runs into a division by zero. *)
Theorem C101_defined : forall fuel draws p p' ss rev r w x y target,
  poe_ok p -> build fuel draws p = Returns (Some (p', ss, rev)) ->
  sliding_arm (exps p') r w x y -> ss = sliding_steps (exps p') r w x y ->
  exists flag cands, ik_solve p' (map sub_step ss) rev target = Some (flag, cands).
Proof.
  exact (fun fuel draws p p' ss rev r w x y target POK BD SA SS => sliding_built_defined fuel draws p p' ss rev target POK BD r w x y SA SS).
Qed.
Print Assumptions C101_defined.

(** C102: a joint that slides along two parallel axes, and a wrist.  The same, provided that the centre of the wrist is not
    wanted at the nearest place to the first of these axes that the pair can bring it to. *)
Theorem C102_reached : forall fuel draws p p' ss rev w x y target cands q,
  poe_ok p -> build fuel draws p = Returns (Some (p', ss, rev)) ->
  linear_arm (exps p') w x y -> ss = linear_steps (exps p') w x y -> rigid target ->
  pair_unfolded (exps p') w (carried p' (if rev then finv target else target) w) ->
  ik_solve p' (map sub_step ss) rev target = Some (true, cands) -> In q cands ->
  exists f, evaluate p q = Some f /\ rigid f /\
    linear_placed (exps p') w x y (carried p' (if rev then finv target else target) w)
      (carried p' (if rev then finv f else f)) (carried p' (if rev then finv target else target)).
Proof.
  exact (fun fuel draws p p' ss rev w x y target cands q POK BD SA SS RT UF SV I =>
    linear_built_sound fuel draws p p' ss rev target POK BD w x y SA SS cands q RT UF SV I).
Qed.
Print Assumptions C102_reached.
(** the IRB 6620LX of the tests of the library meets the first four hypotheses *)
Example C102_tested_arm : poe_ok (rp irb6620lx) /\ exists w x y,
  build 1000 (map Q2R drawn) (rp irb6620lx) = Returns (Some (rp irb6620lx, linear_steps (exps (rp irb6620lx)) w x y, false)) /\
  linear_arm (exps (rp irb6620lx)) w x y.
Proof. exact irb6620lx_built. Qed.
(** a problem of this kind found reachable *)
Example C102_reached_example : poe_ok lp /\ build 1000 (map Q2R l_draws) lp = Returns (Some (lp, linear_steps (exps lp) yw lx ly, false)) /\
  linear_arm (exps lp) yw lx ly /\ pair_unfolded (exps lp) yw (carried lp lt yw) /\
  exists cands, ik_solve lp (map sub_step (linear_steps (exps lp) yw lx ly)) false lt = Some (true, cands) /\ In (repeat 0 6) cands.
Proof. exact (conj l_ok (conj l_built (conj l_arm (conj l_unfolded l_reachable)))). Qed.
(** C102: conversely, the joint values of a regular pose are among the candidates for that pose. *)
Theorem C102_found : forall fuel draws p p' ss rev w x y target q,
  poe_ok p -> build fuel draws p = Returns (Some (p', ss, rev)) ->
  linear_arm (exps p') w x y -> ss = linear_steps (exps p') w x y ->
  evaluate p q = Some target -> linear_regular (exps p') w x (if rev then rev_neg q else q) ->
  exists flag cands, ik_solve p' (map sub_step ss) rev target = Some (flag, cands) /\ In q cands.
Proof.
  exact (fun fuel draws p p' ss rev w x y target q POK BD SA SS EV RG =>
    linear_built_found fuel draws p p' ss rev target POK BD w x y SA SS q EV RG).
Qed.
Print Assumptions C102_found.
Example C102_found_example : linear_regular (exps lp) yw lx (repeat 0 6) /\ evaluate lp (repeat 0 6) = Some (tool lp).
Proof. exact (conj l_regular (at_home lp 6 l_ok eq_refl)). Qed.
(** C102: these problems are always answered: no step runs into a division by zero. *)
Theorem C102_defined : forall fuel draws p p' ss rev w x y target,
  poe_ok p -> build fuel draws p = Returns (Some (p', ss, rev)) ->
  linear_arm (exps p') w x y -> ss = linear_steps (exps p') w x y ->
  exists flag cands, ik_solve p' (map sub_step ss) rev target = Some (flag, cands).
Proof.
  exact (fun fuel draws p p' ss rev w x y target POK BD SA SS => linear_built_defined fuel draws p p' ss rev target POK BD w x y SA SS).
Qed.
Print Assumptions C102_defined.

(** C103: two parallel rotations, a sliding joint and a third rotation, all along one direction.  The same, provided in
    addition that the target keeps that direction. *)
Theorem C103_reached_partial : forall fuel draws p p' ss rev w y target cands q,
  poe_ok p -> build fuel draws p = Returns (Some (p', ss, rev)) ->
  scara_arm (exps p') w y -> ss = scara_steps (exps p') w y -> rigid target ->
  pair_unfolded (exps p') w (carried p' (if rev then finv target else target) w) ->
  upright (exps p') (fmul (if rev then finv target else target) (finv (tool p'))) ->
  ik_solve p' (map sub_step ss) rev target = Some (true, cands) -> In q cands ->
  exists f, evaluate p q = Some f /\ rigid f /\
    scara_placed (exps p') w y (carried p' (if rev then finv target else target) w)
      (carried p' (if rev then finv f else f)) (carried p' (if rev then finv target else target)).
Proof.
  exact (fun fuel draws p p' ss rev w y target cands q POK BD SA SS RT UF UP SV I =>
    scara_built_sound fuel draws p p' ss rev target POK BD w y SA SS cands q RT UF UP SV I).
Qed.
Print Assumptions C103_reached_partial.
(** the IRB 910SC of the tests of the library meets the first four hypotheses *)
Example C103_tested_arm : poe_ok (rp irb910sc) /\ exists w y,
  build 1000 (map Q2R drawn) (rp irb910sc) = Returns (Some (rp irb910sc, scara_steps (exps (rp irb910sc)) w y, false)) /\
  scara_arm (exps (rp irb910sc)) w y.
Proof. exact irb910sc_built. Qed.
(** a problem of this kind found reachable *)
Example C103_reached_example : poe_ok cp /\ build 1000 (map Q2R x_draws) cp = Returns (Some (cp, scara_steps (exps cp) yw ly, false)) /\
  scara_arm (exps cp) yw ly /\ pair_unfolded (exps cp) yw (carried cp lt yw) /\ upright (exps cp) (fmul lt (finv (tool cp))) /\
  exists cands, ik_solve cp (map sub_step (scara_steps (exps cp) yw ly)) false lt = Some (true, cands) /\ In (repeat 0 4) cands.
Proof. exact (conj c_ok (conj c_built (conj c_arm (conj c_unfolded (conj c_upright c_reachable))))). Qed.
(** C103: without that the claim is false: a target that is upside down is reported reachable, although
    the candidate leaves the tool upright. *)
Theorem C103_tilted_refuted : exists fuel draws p w y target cands q f,
  poe_ok p /\ scara_arm (exps p) w y /\ build fuel draws p = Returns (Some (p, scara_steps (exps p) w y, false)) /\ rigid target /\
  pair_unfolded (exps p) w (carried p target w) /\
  ik_solve p (map sub_step (scara_steps (exps p) w y)) false target = Some (true, cands) /\ In q cands /\ evaluate p q = Some f /\
  mv (fM f) (V 0 0 1) = V 0 0 1 /\ mv (fM target) (V 0 0 1) = V 0 0 (-1).
Proof. exact scara_refutes. Qed.
Print Assumptions C103_tilted_refuted.
(** C103: conversely, the joint values of a regular pose are among the candidates for that pose. *)
Theorem C103_found : forall fuel draws p p' ss rev w y target q,
  poe_ok p -> build fuel draws p = Returns (Some (p', ss, rev)) ->
  scara_arm (exps p') w y -> ss = scara_steps (exps p') w y ->
  evaluate p q = Some target -> scara_regular (exps p') w (if rev then rev_neg q else q) ->
  exists flag cands, ik_solve p' (map sub_step ss) rev target = Some (flag, cands) /\ In q cands.
Proof.
  exact (fun fuel draws p p' ss rev w y target q POK BD SA SS EV RG =>
    scara_built_found fuel draws p p' ss rev target POK BD w y SA SS q EV RG).
Qed.
Print Assumptions C103_found.
Example C103_found_example : scara_regular (exps cp) yw (repeat 0 4) /\ evaluate cp (repeat 0 4) = Some (tool cp).
Proof. exact (conj c_regular (at_home cp 4 c_ok eq_refl)). Qed.
(** C103: these problems are always answered: no step runs into a division by zero. *)
Theorem C103_defined : forall fuel draws p p' ss rev w y target,
  poe_ok p -> build fuel draws p = Returns (Some (p', ss, rev)) ->
  scara_arm (exps p') w y -> ss = scara_steps (exps p') w y ->
  exists flag cands, ik_solve p' (map sub_step ss) rev target = Some (flag, cands).
Proof.
  exact (fun fuel draws p p' ss rev w y target POK BD SA SS => scara_built_defined fuel draws p p' ss rev target POK BD w y SA SS).
Qed.
Print Assumptions C103_defined.
