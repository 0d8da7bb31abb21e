(** C98-C100: the solver device from forward to inverse kinematics and back, and the screw-theory forward solver.
    Statements only. *)
From Coq Require Import ZArith QArith Reals Qreals List.
From Verif Require Import Kdl Screw Subproblems Selector Builder KinRep KinRepSpec KdlSolver IkPoseSpec IkPoseArms IkPoseExamples
  SolverLoopSpec SolverLoopFacts SolverLoopExamples FkSt FkStSpec FkStFacts.
Import ListNotations.
Open Scope R_scope.

(** C98: after any history of tools and requests, the joints that invKin answers without a warning bring the tool to the
    pose requested, up to the tolerance of C16, when the problem in use is that of an arm with a spherical wrist. *)
Theorem C98_reached : forall fuel find draws c sel s0 cs s xd qg fr target qd s' r w x y,
  chain_ok c -> find = find_least \/ find = find_gait ->
  sv_open fuel draws c sel = Returns (Some s0) -> call_run fuel find s0 cs = Returns s ->
  wrist_problem s r w x y -> asked s xd qg fr target ->
  invKin find s xd qg fr = Some (Some qd, s') -> ik_error (sv_ik s') = E_NOERROR ->
  exists f, fwdKin s qd = Some (frameToVector f) /\ rigid f /\ forall a b c,
    let p' := ik_poe (sv_ik s) in
    let z := combination w (vsub x w) (vsub y w) a b c in
    dist (carried p' (if ik_rev (sv_ik s) then finv f else f) z) (carried p' (if ik_rev (sv_ik s) then finv target else target) z)
      <= wrist_bound (exps p') r w x y a b c.
Proof. exact loop_reached. Qed.
Print Assumptions C98_reached.
Example C98_reached_example : chain_ok xc /\
  sv_open 1000 (map Q2R x_draws) xc (new_selector (map Ropp xlimits) xlimits) = Returns (Some xs) /\ wrist_problem xs xr xw xx xy /\
  exists xd qd s', invKin find_least xs xd (repeat 0 6) BASE_FRAME = Some (Some qd, s') /\ ik_error (sv_ik s') = E_NOERROR.
Proof. exact (conj xc_ok (conj xs_open (conj xs_wrist xs_home))). Qed.

(** C99: the first request of a device, for the pose of joint values within the limits, is answered with joint values
    within the limits that are not farther from the guess than those. *)
Theorem C99_answered : forall fuel draws c qMin qMax s0 s os r w x y,
  chain_ok c -> sv_open fuel draws c (new_selector qMin qMax) = Returns (Some s0) ->
  tool_run fuel s0 os = Returns s -> ik_error (sv_ik s) <> E_SOLUTION_NOT_FOUND -> wrist_problem s r w x y ->
  forall q qg f, within qMin qMax (map degToRad q) -> length qg = 6%nat ->
  regular (exps (ik_poe (sv_ik s))) r w x (if ik_rev (sv_ik s) then rev_neg (map degToRad q) else map degToRad q) ->
  chain_fwd_kin (sv_chain s) (map degToRad q) = Some f -> regular_log (fM f) ->
  exists qd s', fwdKin s q = Some (frameToVector f) /\ invKin find_least s (frameToVector f) qg BASE_FRAME = Some (Some qd, s') /\
    within qMin qMax (map degToRad qd) /\
    displacement (map degToRad qg) (map degToRad qd) <= displacement (map degToRad qg) (map degToRad q).
Proof. exact loop_near. Qed.
Print Assumptions C99_answered.

(** C99: with those joint values as the guess the answer is those joint values. *)
Theorem C99_round_trip : forall fuel draws c qMin qMax s0 s os r w x y,
  chain_ok c -> sv_open fuel draws c (new_selector qMin qMax) = Returns (Some s0) ->
  tool_run fuel s0 os = Returns s -> ik_error (sv_ik s) <> E_SOLUTION_NOT_FOUND -> wrist_problem s r w x y ->
  forall q f, within qMin qMax (map degToRad q) ->
  regular (exps (ik_poe (sv_ik s))) r w x (if ik_rev (sv_ik s) then rev_neg (map degToRad q) else map degToRad q) ->
  chain_fwd_kin (sv_chain s) (map degToRad q) = Some f -> regular_log (fM f) ->
  exists s', fwdKin s q = Some (frameToVector f) /\ invKin find_least s (frameToVector f) q BASE_FRAME = Some (Some q, s').
Proof. exact loop_back. Qed.
Print Assumptions C99_round_trip.
Example C99_round_trip_example : within (map Ropp xlimits) xlimits (map degToRad xd6) /\
  regular (exps (ik_poe (sv_ik xs))) xr xw xx (map degToRad xd6) /\
  exists f, chain_fwd_kin (sv_chain xs) (map degToRad xd6) = Some f /\ regular_log (fM f).
Proof. exact (conj xd_within (conj xd_regular xd_pose)). Qed.

(** C100: after any history, the solver answers as KDL for the chain as it was at the last update, and refuses joint
    arrays of another size. *)
Theorem C100_agrees_partial : forall c0 os q p n, let c := seen c0 c0 os in let k := fold_left fk_step os (fk_create c0) in
  chain_ok c -> (n < 0)%Z ->
  (length q = nr_of_joints c -> exists f k', chain_fwd_kin c q = Some f /\ fk_jnt_to_cart k q p n = (E_NOERROR, f, k')) /\
  (length q <> nr_of_joints c -> exists e k', fk_jnt_to_cart k q p n = (e, p, k') /\ (e < 0)%Z).
Proof. exact fk_agrees. Qed.
Print Assumptions C100_agrees_partial.
Example C100_agrees_example : seen xc xc [Change []; Ask1 [0] fid (-1); Update; Change xc; Update; Change []] = xc /\ chain_ok xc.
Proof. exact (conj eq_refl xc_ok). Qed.
(** C100: poses of single segments are refused. *)
Theorem C100_segments : forall k q p ps n m, (0 <= n)%Z ->
  (exists k', fk_jnt_to_cart k q p n = (E_OPERATION_NOT_SUPPORTED, p, k')) /\ exists k', fk_jnt_to_carts k q ps m = (E_OPERATION_NOT_SUPPORTED, ps, k').
Proof. exact fk_segments. Qed.
Print Assumptions C100_segments.
(** C100 is false of joints of reversed sense (C08). *)
Theorem C100_reversed_refuted : exists c q f f' k', chain_fwd_kin c q = Some f /\ fk_jnt_to_cart (fk_create c) q fid (-1) = (E_NOERROR, f', k') /\ f' <> f.
Proof. exact fk_reversed. Qed.
Print Assumptions C100_reversed_refuted.
