(** The angles of the closed-form inverse kinematics. *)
From Coq Require Import ZArith QArith Reals Qreals List Lia.
From Verif Require Import Kdl KdlFacts Screw Subproblems IkProblem Selector Builder BuilderSpec KinRep KdlSolver KdlSolverFacts IkPoseSpec IkPoseArms IkPoseExamples SolverLoopSpec SolverLoopExamples IkRangeSpec IkRangeFacts IkRangeFacts2.
Import ListNotations.
Open Scope R_scope.

(** C126: every candidate has one value per joint, and the values of the rotary joints are at most half a turn. *)
Theorem C126_candidates : forall fuel draws p p' ss reversed target flag cands q, poe_ok p -> build fuel draws p = Returns (Some (p', ss, reversed)) ->
  ik_solve p' (map sub_step ss) reversed target = Some (flag, cands) -> In q cands -> length q = length (exps p) /\
  forall i e x, nth_error (exps p) i = Some e -> e_motion e = ROTATION -> nth_error q i = Some x -> - PI <= x <= PI.
Proof. exact built_range. Qed.
Print Assumptions C126_candidates.
Example C126_candidates_example : poe_ok xp /\ build 1000 (map Q2R x_draws) xp = Returns (Some (xp, wrist_steps (exps xp) xr xw xx xy, false)) /\
  exists cands, ik_solve xp (map sub_step (wrist_steps (exps xp) xr xw xx xy)) false xt = Some (true, cands) /\ exists q, In q cands.
Proof. exact (conj x_ok (conj x_built x_some)). Qed.

(** C126: whatever was called before, the degrees answered for a rotary joint are at most half a turn. *)
Theorem C126_answers : forall fuel find draws c sel s0 cs s xd qg fr qd s', chain_ok c -> strategy find ->
  sv_open fuel draws c sel = Returns (Some s0) -> call_run fuel find s0 cs = Returns s -> invKin find s xd qg fr = Some (Some qd, s') ->
  forall i x, turns c i -> nth_error qd i = Some x -> -180 <= x <= 180.
Proof. exact device_range. Qed.
Print Assumptions C126_answers.
Example C126_answers_example : chain_ok xc /\ sv_open 1000 (map Q2R x_draws) xc (new_selector (map Ropp xlimits) xlimits) = Returns (Some xs) /\
  (exists xd qd s', invKin find_least xs xd (repeat 0 6) BASE_FRAME = Some (Some qd, s') /\ ik_error (sv_ik s') = E_NOERROR) /\ forall i, (i < 6)%nat -> turns xc i.
Proof. exact (conj xc_ok (conj xs_open (conj xs_home x_turns))). Qed.

(** C127: a pose taken at joint values within the limits is not always answered. *)
Theorem C127_answered_refuted : exists fuel draws c qMin qMax s q x, chain_ok c /\ sv_open fuel draws c (new_selector qMin qMax) = Returns (Some s) /\
  within qMin qMax (map degToRad q) /\ fwdKin s q = Some x /\ forall qg, length qg = length q -> exists s', invKin find_least s x qg BASE_FRAME = Some (None, s').
Proof. exact within_refused. Qed.
Print Assumptions C127_answered_refuted.

(** C127: with the limits of one rotary joint beyond half a turn nothing is ever answered. *)
Theorem C127_blocked : forall fuel find draws c qMin qMax s0 cs s xd qg fr i, chain_ok c -> strategy find ->
  sv_open fuel draws c (new_selector qMin qMax) = Returns (Some s0) -> call_run fuel find s0 cs = Returns s ->
  turns c i -> beyond qMin qMax i -> forall qd s', invKin find s xd qg fr <> Some (Some qd, s').
Proof. exact device_blocked. Qed.
Print Assumptions C127_blocked.
Example C127_blocked_example : chain_ok xc /\ sv_open 1000 (map Q2R x_draws) xc (new_selector ymin ymax) = Returns (Some ys) /\ turns xc 0 /\ beyond ymin ymax 0 /\
  within ymin ymax (map degToRad yd6).
Proof. exact (conj xc_ok (conj ys_open (conj (x_turns 0 (Nat.lt_0_succ 5)) (conj y_beyond y_within)))). Qed.
