(** C44-C47, C66, C67: the solver device.  Statements only. *)
From Coq Require Import Reals List.
From Verif Require Import Kdl KdlRot Screw Subproblems IkProblem Selector Builder BuilderExamples2 KinRep KinRepSpec KdlSolver KdlSolverFacts KdlSolverExamples.
Import ListNotations.
Open Scope R_scope.

(** C44: after any history of appendLink and restoreOriginalChain, forward kinematics is the
    original one followed by the transforms of the tools appended since the last restore. *)
Theorem C44_tools : forall fuel s os s' q,
  sv_chain s = sv_original s -> tool_run fuel s os = Returns s' -> (nr_of_joints (sv_original s) <= length q)%nat ->
  exists f, fwdKin s q = Some (frameToVector f) /\
    fwdKin s' q = Some (frameToVector (fmul f
      (fold_left (fun g x => fmul g (vectorToFrame x))
        (fold_left (fun xs o => match o with Append x => xs ++ [x] | Restore => [] end) (map fst os) []) fid))).
Proof. exact tools_forward. Qed.
Print Assumptions C44_tools.

(** C44: after restoreOriginalChain forward kinematics is the original one. *)
Theorem C44_restored : forall fuel s os s' dr s'', sv_chain s = sv_original s ->
  tool_run fuel s os = Returns s' -> restoreOriginalChain fuel dr s' = Returns s'' ->
  forall q, fwdKin s'' q = fwdKin s q.
Proof. exact restored_forward. Qed.
Print Assumptions C44_restored.
Example C44_example : exists fuel s1 s2, sv_chain crank_solver = sv_original crank_solver /\
  tool_run fuel crank_solver [(Append back, [/ 2; / 2])] = Returns s1 /\ restoreOriginalChain fuel [/ 2] s1 = Returns s2.
Proof. exact crank_history. Qed.

(** C45: the solver after restoreOriginalChain is the one that was opened.  Missing: tools
    for which no closed form is found (false, next theorem), and points drawn otherwise. *)
Theorem C45_restored_partial : forall fuel dr0 c sel s os s' s'',
  sv_open fuel dr0 c sel = Returns (Some s) -> tool_run fuel s os = Returns s' ->
  ik_error (sv_ik s') <> E_SOLUTION_NOT_FOUND -> restoreOriginalChain fuel dr0 s' = Returns s'' -> s'' = s.
Proof. exact restored_inverse. Qed.
Print Assumptions C45_restored_partial.
Example C45_restored_partial_example : forall k, sv_open (3 + k) [/ 2] crank_chain crank_sel = Returns (Some crank_solver) /\
  tool_run (3 + k) crank_solver [(Restore, [/ 2])] = Returns crank_solver /\ ik_error (sv_ik crank_solver) <> E_SOLUTION_NOT_FOUND.
Proof. exact crank_reopened. Qed.

(** C45 is false: a tool is appended and removed, and inverse kinematics always fails. *)
Theorem C45_restored_refuted : exists fuel dr0 c sel s xd q q' s' x dr1 s1 dr2 s2,
  sv_open fuel dr0 c sel = Returns (Some s) /\
  invKin find_least s xd q BASE_FRAME = Some (Some q', s') /\
  appendLink fuel dr1 x s = Returns s1 /\ restoreOriginalChain fuel dr2 s1 = Returns s2 /\
  forall find xd q fr r s3, invKin find s2 xd q fr = Some (r, s3) -> r = None.
Proof. exact crank_lost. Qed.
Print Assumptions C45_restored_refuted.

(** C45, how it fails in general: once a tool leaves no closed form, no later history makes
    inverse kinematics succeed. *)
Theorem C45_lost_forever : forall fuel s x dr s1 os s2 find xd q fr,
  build fuel dr (fromChain (sv_chain s ++ [mk_segment fixed_joint (vectorToFrame x)])) = Returns None ->
  appendLink fuel dr x s = Returns s1 -> tool_run fuel s1 os = Returns s2 ->
  forall r s3, invKin find s2 xd q fr = Some (r, s3) -> r = None.
Proof. exact lost_forever. Qed.
Print Assumptions C45_lost_forever.
Example C45_lost_forever_example : exists fuel s1,
  build fuel [/ 2; / 2] (fromChain (sv_chain crank_solver ++ [mk_segment fixed_joint (vectorToFrame back)])) = Returns None /\
  appendLink fuel [/ 2; / 2] back crank_solver = Returns s1.
Proof. exact crank_loses. Qed.

(** C46: on success there is one value per joint, and each value is within its limits. *)
Theorem C46_within : forall jac k c qi p qo q,
  (forall c q cols, jac c q = Some cols -> length cols = nr_of_joints c) ->
  id_cart_to_jnt jac k c qi p qo = (E_NOERROR, q) ->
  length q = nr_of_joints c /\
  forall j v lo hi, nth_error q j = Some (Some v) -> nth_error (id_min k) j = Some lo -> nth_error (id_max k) j = Some hi -> lo <= hi ->
    lo <= v <= hi.
Proof. exact id_within. Qed.
Print Assumptions C46_within.
Example C46_within_example : columns_ok crank_jac /\
  forall p, exists q, id_cart_to_jnt crank_jac crank_id crank_chain [0] p [Some 0] = (E_NOERROR, q).
Proof. exact (conj (proj1 crank_columns) crank_id_ok). Qed.

(** C46: the step is the best one along the transposed Jacobian, for the linearised error. *)
Theorem C46_best_step : forall cols e dq, Forall (fun c => length c = 6%nat) cols -> length e = 6%nat ->
  computeDiffInvKin cols e = map Some dq ->
  forall b, dot6 (sub6 e (jacv cols dq)) (sub6 e (jacv cols dq)) <=
    dot6 (sub6 e (jacv cols (map (Rmult b) (jacT cols e)))) (sub6 e (jacv cols (map (Rmult b) (jacT cols e)))).
Proof. exact id_best. Qed.
Print Assumptions C46_best_step.
Example C46_best_step_example : computeDiffInvKin [[1; 0; 0; 0; 0; 0]] [3; 4; 0; 0; 0; 0] = map Some [3].
Proof. exact best_example. Qed.

(** C46 is false at the target pose: success is reported and no joint is a number. *)
Theorem C46_at_target_refuted : exists jac k c qi p q,
  (forall c q cols, jac c q = Some cols -> length cols = nr_of_joints c) /\
  chain_fwd_kin c qi = Some p /\ rigid p /\ length qi = nr_of_joints c /\
  id_cart_to_jnt jac k c qi p (map Some qi) = (E_NOERROR, q) /\ q = map (fun _ => None) qi /\ q <> map Some qi.
Proof. exact at_target_nan. Qed.
Print Assumptions C46_at_target_refuted.

(** C46, how it fails in general: so for every chain and every joint vector. *)
Theorem C46_at_target_nan : forall jac k c qi p qo q,
  (forall c q cols, jac c q = Some cols -> length cols = nr_of_joints c) ->
  (forall cols, jac c qi = Some cols -> Forall (fun col => length col = 6%nat) cols) ->
  chain_fwd_kin c qi = Some p -> rigid p -> id_cart_to_jnt jac k c qi p qo = (E_NOERROR, q) ->
  q = repeat None (nr_of_joints c).
Proof. exact id_at_target. Qed.
Print Assumptions C46_at_target_nan.

(** C47: changeOrigin composes its arguments ([regular_log]: the rotation can be written as a
    vector and read back, see Properties_Kin). *)
Theorem C47_composes : forall a b, regular_log (fM (fmul (vectorToFrame b) (vectorToFrame a))) ->
  vectorToFrame (changeOrigin a b) = fmul (vectorToFrame b) (vectorToFrame a).
Proof. exact origin_composes. Qed.
Print Assumptions C47_composes.
Theorem C47_associative : forall a b c, regular_log (fM (fmul (vectorToFrame b) (vectorToFrame a))) ->
  regular_log (fM (fmul (vectorToFrame c) (vectorToFrame b))) ->
  changeOrigin (changeOrigin a b) c = changeOrigin a (changeOrigin b c).
Proof. exact origin_assoc. Qed.
Print Assumptions C47_associative.
Example C47_example : regular_log (fM (fmul (vectorToFrame [5; 0; 0; 0; 0; 0]) (vectorToFrame back))).
Proof. exact origin_example. Qed.

(** C47: with the inverse pose it gives the null pose. *)
Theorem C47_inverse : forall x xi, vectorToFrame xi = finv (vectorToFrame x) ->
  changeOrigin x xi = repeat 0 6 /\ changeOrigin xi x = repeat 0 6.
Proof. exact origin_inverse. Qed.
Print Assumptions C47_inverse.
Example C47_inverse_example : vectorToFrame [1; 0; 0; 0; 0; 0] = finv (vectorToFrame back).
Proof. exact inverse_example. Qed.

(** C47: the difference of equal poses is zero; in general it is the displacement and the
    rotation vector, in the base frame, that lead from the second pose to the first. *)
Theorem C47_difference_zero : forall x, poseDiff x x = repeat 0 6.
Proof. exact pose_diff_zero. Qed.
Print Assumptions C47_difference_zero.
Theorem C47_difference : forall x y, let d := vectorToTwist (poseDiff x y) in
  fp (vectorToFrame x) = vadd (fp (vectorToFrame y)) (t_vel d) /\
  (regular_log (mm (mT (fM (vectorToFrame y))) (fM (vectorToFrame x))) ->
   fM (vectorToFrame x) = mm (rot_of (t_rot d)) (fM (vectorToFrame y))).
Proof. exact pose_diff_spec. Qed.
Print Assumptions C47_difference.
Example C47_difference_example : regular_log (mm (mT (fM (vectorToFrame back))) (fM (vectorToFrame [0; 0; 0; 1; 0; 0]))).
Proof. exact difference_example. Qed.

(** C66: a target in the tool frame is the target that it denotes in the base frame at the
    guessed joints; other frames are refused and change nothing. *)
Theorem C66_tool_frame : forall find s x q qr f,
  joints_in (sv_chain s) q = Some qr -> chain_fwd_kin (sv_chain s) qr = Some f ->
  rigid f -> regular_log (fM (fmul f (vectorToFrame x))) ->
  invKin find s x q TCP_FRAME = invKin find s (frameToVector (fmul f (vectorToFrame x))) q BASE_FRAME.
Proof. exact tcp_is_base. Qed.
Print Assumptions C66_tool_frame.
Example C66_tool_frame_example : exists qr f, joints_in (sv_chain crank_solver) [0] = Some qr /\
  chain_fwd_kin (sv_chain crank_solver) qr = Some f /\ rigid f /\ regular_log (fM (fmul f (vectorToFrame back))).
Proof. exact tool_frame_example. Qed.
Theorem C66_other_frame : forall find s x q, (nr_of_joints (sv_chain s) <= length q)%nat ->
  invKin find s x q OTHER_FRAME = Some (None, s).
Proof. exact other_refused. Qed.
Print Assumptions C66_other_frame.

(** C67: what the closed-form solver returns is a candidate for the target, within the joint
    limits up to the tolerance, in degrees.  Missing: that the pose is reached (false, next). *)
Theorem C67_returned_partial : forall find s xd qg qd s', find = find_least \/ find = find_gait ->
  invKin find s xd qg BASE_FRAME = Some (Some qd, s') ->
  exists flag cands q, ik_solve (ik_poe (sv_ik s)) (map sub_step (ik_steps (sv_ik s))) (ik_rev (sv_ik s)) (vectorToFrame xd) = Some (flag, cands) /\
    In q cands /\ qd = map radToDeg q /\
    forall i x lo hi, nth_error q i = Some x -> nth_error (s_min (ik_sel (sv_ik s))) i = Some lo ->
      nth_error (s_max (ik_sel (sv_ik s))) i = Some hi -> lo - kdl_eps <= x <= hi + kdl_eps.
Proof. exact returned_candidate. Qed.
Print Assumptions C67_returned_partial.
Example C67_returned_partial_example : exists s', invKin find_least crank_solver [1; 0; 0; 0; 0; 0] [0] BASE_FRAME = Some (Some [radToDeg 0], s').
Proof. exact (crank_inverse 1 0 Rlt_0_1). Qed.

(** C67 is false: success is reported for a pose that is out of reach. *)
Theorem C67_reached_refuted : exists s xd q q' s' x',
  (exists fuel dr c sel, sv_open fuel dr c sel = Returns (Some s)) /\
  invKin find_least s xd q BASE_FRAME = Some (Some q', s') /\ fwdKin s q' = Some x' /\
  fp (vectorToFrame x') <> fp (vectorToFrame xd).
Proof. exact crank_unreached. Qed.
Print Assumptions C67_reached_refuted.
