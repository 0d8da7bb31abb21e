(** Properties of the Cartesian controller attached to the chain solver device. *)
From Coq Require Import Reals ZArith List.
From Verif Require Import Kdl KdlRot KinRepSpec AsibotSpec Vocab Bcc BccSpec BccKdl BccLineSpec BccCmdSpec BccExamples BccLineExamples BccCmdExamples
  Sys SysSpec SysFacts SysFacts2 SysFacts3 SysFacts5 SysExamples SysExamples2 SysExamples3 BccLineSpec LineSpec.
From Verif Require Screw Subproblems KdlSolver KdlSolverFacts KdlSolverExamples Tree TreeSpec Config ConfigSpec KinRep SolverLoopSpec SolverLoopExamples IkPoseExamples.
Import ListNotations.
Open Scope R_scope.
Local Notation length := List.length.

(** C115: stat tells the pose of the tool set last, at the end of the chain, with the joints where the encoders say that they are. *)
Theorem C115_told : forall d ch v0 c s h s1 v1 tr x state time s2 v2, rigid_links ch -> opened d ch [] v0 -> numJoints c = nr_of_joints ch ->
  six_tools h -> history c s h s1 -> served d v0 (trace_of h) v1 ->
  exec (stat c true) s1 tr (Done (Some (x, state, time))) s2 -> served d v1 tr v2 ->
  exists q f, joints_read (numJoints c) tr q /\ stands_bare v0 q f /\ length x = 6%nat /\
    let g := fmul f (tool_in_use fid h) in fp (pose_at x 0) = fp g /\ (regular_log (fM g) -> pose_at x 0 = g).
Proof. exact stat_told. Qed.
Print Assumptions C115_told.

Example C115_told_example : exists d v1, rigid_links KdlSolverExamples.crank_chain /\ opened d KdlSolverExamples.crank_chain [] KdlSolverExamples.crank_solver /\ numJoints one = nr_of_joints KdlSolverExamples.crank_chain /\
  six_tools [(OTool KdlSolverExamples.back, set_back, true)] /\ history one idle [(OTool KdlSolverExamples.back, set_back, true)] idle /\ served d KdlSolverExamples.crank_solver (trace_of [(OTool KdlSolverExamples.back, set_back, true)]) v1 /\
  exec (stat one true) idle ask_where (Done (Some (row 0, VOCAB_CC_NOT_CONTROLLING, 1))) idle /\ served d v1 ask_where v1 /\
  tool_in_use fid [(OTool KdlSolverExamples.back, set_back, true)] = at_x (-1) /\ stands_bare KdlSolverExamples.crank_solver [0] (at_x 1).
Proof. exact stat_crank. Qed.

(** C116: the joint positions that movj sends put the tool where it has been asked to go.  Partial: for arms with a spherical wrist, up to the tolerance of C16, and if the closed-form solver does not warn. *)
Theorem C116_movj_partial : forall d ch pre v r w px py c, Screw.chain_ok ch -> KdlSolverFacts.strategy (dev_find d) -> opened d ch pre v -> SolverLoopSpec.wrist_problem v r w px py -> numJoints c = nr_of_joints (KdlSolver.sv_chain v) ->
  forall y s tr s' v', length y = 6%nat -> exec (movj c y) s tr (Done true) s' -> through (unwarned d) v tr v' ->
  exists g q f target, joints_read (numJoints c) tr g /\ seen_from v (referenceFrame s) g (pose_at y 0) target /\ stands v q f /\ within_tolerance v r w px py f target /\
    ((motions tr = [PositionMove q] /\ (exists a, In (PositionMove q, a) tr /\ ok a = true) /\ currentState s' = VOCAB_CC_MOVJ_CONTROLLING) \/
     (motions tr = [] /\ s' = s /\ ~ must_move (numJoints c) (qRefSpeeds c) g q)).
Proof. exact movj_reaches. Qed.
Print Assumptions C116_movj_partial.

Example C116_movj_partial_example : exists q v s' v', length (row 1) = 6%nat /\ exec (movj arm (row 1)) idle (to_home q v) (Done true) s' /\ through (unwarned dev) SolverLoopExamples.xs (to_home q v) v' /\
  motions (to_home q v) = [PositionMove q].
Proof. exact movj_arm. Qed.

(** C116: and so do those streamed for a pose (partial as above). *)
Theorem C116_pose_partial : forall d ch pre v r w px py c, Screw.chain_ok ch -> KdlSolverFacts.strategy (dev_find d) -> opened d ch pre v -> SolverLoopSpec.wrist_problem v r w px py -> numJoints c = nr_of_joints (KdlSolver.sv_chain v) ->
  forall y s tr s' v', complete c -> wide c -> length y = 6%nat -> exec (pose c y) s tr (Done tt) s' -> through (unwarned d) v tr v' ->
  currentState s = VOCAB_CC_NOT_CONTROLLING -> In (streamingCommand s) [VOCAB_CC_POSE; VOCAB_CC_MOVI] -> in_mode (numJoints c) VOCAB_CM_POSITION_DIRECT tr ->
  (exists g q f target, motions tr = [SetPositions q] /\ joints_read (numJoints c) tr g /\ seen_from v (referenceFrame s) g (pose_at y 0) target /\ stands v q f /\
     within_tolerance v r w px py f target) \/
  (motions tr = [] /\ (refused tr \/ exists q a e, joints_read (numJoints c) tr q /\ In (InvKin y q (referenceFrame s), a) tr /\ difference q (vals a) e /\ ~ retreating c q e)).
Proof. exact pose_reaches. Qed.
Print Assumptions C116_pose_partial.

Example C116_pose_partial_example : exists v', complete arm /\ wide arm /\ length (row 1) = 6%nat /\ exec (pose arm (row 1)) posing hold (Done tt) posing /\ through (unwarned dev) SolverLoopExamples.xs hold v' /\
  currentState posing = VOCAB_CC_NOT_CONTROLLING /\ In (streamingCommand posing) [VOCAB_CC_POSE; VOCAB_CC_MOVI] /\ in_mode (numJoints arm) VOCAB_CM_POSITION_DIRECT hold.
Proof. exact pose_arm. Qed.

(** C116: and those sent along a line, that put it on the line (partial as above). *)
Theorem C116_line_partial : forall d ch pre v r w px py c, Screw.chain_ok ch -> KdlSolverFacts.strategy (dev_find d) -> opened d ch pre v -> SolverLoopSpec.wrist_problem v r w px py -> numJoints c = nr_of_joints (KdlSolver.sv_chain v) ->
  forall fuel xd s tr s1 h s2 v1 v2, usePosdMovl c = true -> 0 < duration s -> length xd = 6%nat -> exec (movl c fuel xd) s tr (Done true) s1 ->
  history c s1 h s2 -> Forall (fun e => lets_go_on (fst (fst e)) /\ no_tool (fst (fst e))) h ->
  Forall as_kdl (trace_of h) -> served d v tr v1 -> through (unwarned d) v1 (trace_of h) v2 ->
  exists g from start, joints_read (numJoints c) tr g /\ stands v g from /\ In (Now, start) tr /\
    let target := if Z.eqb (referenceFrame s) TCP_FRAME then fmul from (pose_at xd 0) else pose_at xd 0 in
    (regular_log (fM from) -> (referenceFrame s = TCP_FRAME -> regular_log (fM target)) -> measurable from target ->
     exists move, on_line from target (duration s) move /\
     forall o t b x a, In (o, t, b) h -> In (x, a) t -> motion x = true ->
       exists q now f, o = OCycle /\ x = SetPositions q /\ In (Now, now) t /\ let u := num now - num start in
         u <= line_time from target (duration s) /\ stands v q f /\ (regular_log (fM (move u)) -> within_tolerance v r w px py f (move u))).
Proof. exact movl_reaches. Qed.
Print Assumptions C116_line_partial.

Example C116_line_partial_example : exists v2, usePosdMovl arm_direct = true /\ 0 < duration idle /\ length (facing 1) = 6%nat /\
  exec (movl arm_direct 0 (facing 1)) idle (turn_start VOCAB_CM_POSITION_DIRECT) (Done true) turning /\
  history arm_direct turning [(OCycle, first_cycle, true)] turning /\ Forall (fun e => lets_go_on (fst (fst e)) /\ no_tool (fst (fst e))) [(OCycle, first_cycle, true)] /\
  Forall as_kdl (trace_of [(OCycle, first_cycle, true)]) /\ served dev SolverLoopExamples.xs (turn_start VOCAB_CM_POSITION_DIRECT) SolverLoopExamples.xs /\ through (unwarned dev) SolverLoopExamples.xs (trace_of [(OCycle, first_cycle, true)]) v2 /\
  joints_read 6 (turn_start VOCAB_CM_POSITION_DIRECT) home /\ stands SolverLoopExamples.xs home (at_x 1) /\ regular_log (fM (at_x 1)) /\ measurable (at_x 1) (pose_at (facing 1) 0) /\
  In (SetPositions home, yes) first_cycle.
Proof. exact movl_arm_direct. Qed.

Example C116_arm_example : Screw.chain_ok SolverLoopExamples.xc /\ KdlSolverFacts.strategy (dev_find dev) /\ opened dev SolverLoopExamples.xc [] SolverLoopExamples.xs /\ SolverLoopSpec.wrist_problem SolverLoopExamples.xs IkPoseExamples.xr IkPoseExamples.xw IkPoseExamples.xx IkPoseExamples.xy /\ numJoints arm = nr_of_joints (KdlSolver.sv_chain SolverLoopExamples.xs).
Proof. exact (conj SolverLoopExamples.xc_ok (conj dev_strategy (conj dev_opened (conj SolverLoopExamples.xs_wrist eq_refl)))). Qed.

(** C116, without the warning: movj accepts a target out of reach and moves somewhere else. *)
Theorem C116_reach_refuted : exists d v c y s tr s' v' q f, opened d KdlSolverExamples.crank_chain [] v /\ KdlSolverFacts.strategy (dev_find d) /\ numJoints c = nr_of_joints (KdlSolver.sv_chain v) /\ length y = 6%nat /\
  referenceFrame s = BASE_FRAME /\ exec (movj c y) s tr (Done true) s' /\ served d v tr v' /\ motions tr = [PositionMove q] /\ stands v q f /\ Subproblems.dist (fp f) (fp (pose_at y 0)) = 4.
Proof. exact far_refuted. Qed.
Print Assumptions C116_reach_refuted.

(** C117: a velocity streamed to the robot moves its tool with that velocity, or the robot is stopped for a reason. *)
Theorem C117_twist : forall d ch pre v c, Screw.chain_ok ch -> opened d ch pre v -> numJoints c = nr_of_joints (KdlSolver.sv_chain v) -> one_per_joint d v ->
  forall x s tr s' v', complete c -> wide c -> length x = 6%nat -> exec (twist c x) s tr (Done tt) s' -> served d v tr v' ->
  currentState s = VOCAB_CC_NOT_CONTROLLING -> streamingCommand s = VOCAB_CC_TWIST -> in_mode (numJoints c) VOCAB_CM_VELOCITY tr ->
  exists w, motions tr = [VelocityMove w] /\
  ((exists q f, joints_read (numJoints c) tr q /\ stands v q f /\ retreating c q w /\ slow c w /\
      (TreeSpec.faithful_chain (dev_kdl d) v q -> carries v q w (turned (referenceFrame s) f (twist_at x 0)))) \/
   (w = still (numJoints c) /\ (refused tr \/
      exists q a, joints_read (numJoints c) tr q /\ In (DiffInvKin q x (referenceFrame s), a) tr /\ ~ (retreating c q (vals a) /\ slow c (vals a))))).
Proof. exact twist_carries. Qed.
Print Assumptions C117_twist.

Example C117_twist_example : complete arm /\ wide arm /\ length [0; 0; 0; 0; 0; 7 / 10] = 6%nat /\ exec (twist arm [0; 0; 0; 0; 0; 7 / 10]) streaming spun (Done tt) streaming /\ served dev SolverLoopExamples.xs spun SolverLoopExamples.xs /\
  currentState streaming = VOCAB_CC_NOT_CONTROLLING /\ streamingCommand streaming = VOCAB_CC_TWIST /\ in_mode (numJoints arm) VOCAB_CM_VELOCITY spun /\
  TreeSpec.faithful_chain (dev_kdl dev) SolverLoopExamples.xs home.
Proof. exact twist_arm. Qed.

(** C117: along a line the tool moves with the velocity of the line, corrected by how far it is from it. *)
Theorem C117_line : forall d ch pre v c, Screw.chain_ok ch -> opened d ch pre v -> numJoints c = nr_of_joints (KdlSolver.sv_chain v) -> one_per_joint d v ->
  forall fuel xd s tr s1 h s2 v1 v2, usePosdMovl c = false -> 0 < duration s -> length xd = 6%nat -> exec (movl c fuel xd) s tr (Done true) s1 ->
  history c s1 h s2 -> Forall (fun e => lets_go_on (fst (fst e)) /\ no_tool (fst (fst e))) h ->
  Forall as_kdl (trace_of h) -> served d v tr v1 -> served d v1 (trace_of h) v2 ->
  exists g from start, joints_read (numJoints c) tr g /\ stands v g from /\ In (Now, start) tr /\
    let target := if Z.eqb (referenceFrame s) TCP_FRAME then fmul from (pose_at xd 0) else pose_at xd 0 in
    (regular_log (fM from) -> (referenceFrame s = TCP_FRAME -> regular_log (fM target)) -> measurable from target ->
     exists move, on_line from target (duration s) move /\
     forall o t b x a, In (o, t, b) h -> In (x, a) t -> motion x = true ->
       exists w now q f vel e, o = OCycle /\ x = VelocityMove w /\ In (Now, now) t /\ joints_read (numJoints c) t q /\ stands v q f /\ let u := num now - num start in
         u <= line_time from target (duration s) /\ velocity_of move u vel /\
         fp (move u) = vadd (fp f) (t_vel e) /\ (regular_log (fM f) -> regular_log (fM (move u)) -> separates f (move u) e) /\
         (TreeSpec.faithful_chain (dev_kdl d) v q -> carries v q w (corrected vel (gain s * 1000 / IZR (cmcPeriodMs s)) e))).
Proof. exact movl_carries. Qed.
Print Assumptions C117_line.

Example C117_line_example : usePosdMovl arm = false /\ 0 < duration idle /\ length (facing 1) = 6%nat /\
  exec (movl arm 0 (facing 1)) idle (turn_start VOCAB_CM_VELOCITY) (Done true) turning /\
  history arm turning [(OCycle, late w7, true)] turning /\ Forall (fun e => lets_go_on (fst (fst e)) /\ no_tool (fst (fst e))) [(OCycle, late w7, true)] /\
  Forall as_kdl (trace_of [(OCycle, late w7, true)]) /\ served dev SolverLoopExamples.xs (turn_start VOCAB_CM_VELOCITY) SolverLoopExamples.xs /\ served dev SolverLoopExamples.xs (trace_of [(OCycle, late w7, true)]) SolverLoopExamples.xs /\
  joints_read 6 (turn_start VOCAB_CM_VELOCITY) home /\ stands SolverLoopExamples.xs home (at_x 1) /\ regular_log (fM (at_x 1)) /\ measurable (at_x 1) (pose_at (facing 1) 0) /\
  In (VelocityMove [0; 0; 0; 0; 0; w7], yes) (late w7) /\ joints_read 6 (late w7) home /\ TreeSpec.faithful_chain (dev_kdl dev) SolverLoopExamples.xs home.
Proof. exact movl_arm. Qed.

(** C117: and at constant velocity with this velocity, corrected likewise.  Partial: in the first ten metres or radians, after which KDL ends its path. *)
Theorem C117_constant_partial : forall d ch pre v c, Screw.chain_ok ch -> opened d ch pre v -> numJoints c = nr_of_joints (KdlSolver.sv_chain v) -> one_per_joint d v ->
  forall xd s tr s1 h s2 v1 v2, length xd = 6%nat -> exec (movv c xd) s tr (Done true) s1 ->
  history c s1 h s2 -> Forall (fun e => lets_go_on (fst (fst e)) /\ no_tool (fst (fst e))) h ->
  Forall as_kdl (trace_of h) -> served d v tr v1 -> served d v1 (trace_of h) v2 -> visible (twist_at xd 0) ->
  exists g from start, joints_read (numJoints c) tr g /\ stands v g from /\ In (Now, start) tr /\ (regular_log (fM from) ->
   forall o t b x a, In (o, t, b) h -> In (x, a) t -> motion x = true ->
     exists w now q f e, o = OCycle /\ x = VelocityMove w /\ In (Now, now) t /\ joints_read (numJoints c) t q /\ stands v q f /\
       let u := num now - num start in let there := going from (twist_at xd 0) u in
       (0 <= u -> u * speed (twist_at xd 0) <= 10 ->
         fp there = vadd (fp f) (t_vel e) /\ (regular_log (fM f) -> regular_log (fM there) -> separates f there e) /\
         (TreeSpec.faithful_chain (dev_kdl d) v q -> carries v q w (turned (referenceFrame s) f (corrected (twist_at xd 0) (gain s * 1000 / IZR (cmcPeriodMs s)) e))))).
Proof. exact movv_carries. Qed.
Print Assumptions C117_constant_partial.

Example C117_constant_partial_example : length [0; 0; 0; 0; 0; 2 / 10] = 6%nat /\ exec (movv arm [0; 0; 0; 0; 0; 2 / 10]) idle spin_start (Done true) spinning_st /\
  history arm spinning_st [(OCycle, late_spin w4, true)] spinning_st /\ Forall (fun e => lets_go_on (fst (fst e)) /\ no_tool (fst (fst e))) [(OCycle, late_spin w4, true)] /\
  Forall as_kdl (trace_of [(OCycle, late_spin w4, true)]) /\ served dev SolverLoopExamples.xs spin_start SolverLoopExamples.xs /\ served dev SolverLoopExamples.xs (trace_of [(OCycle, late_spin w4, true)]) SolverLoopExamples.xs /\ visible (twist_at [0; 0; 0; 0; 0; 2 / 10] 0) /\
  joints_read 6 spin_start home /\ stands SolverLoopExamples.xs home (at_x 1) /\ regular_log (fM (at_x 1)) /\ In (VelocityMove [0; 0; 0; 0; 0; w4], yes) (late_spin w4) /\
  (6 - 5) * speed (twist_at [0; 0; 0; 0; 0; 2 / 10] 0) <= 10 /\ joints_read 6 (late_spin w4) home /\ TreeSpec.faithful_chain (dev_kdl dev) SolverLoopExamples.xs home.
Proof. exact movv_arm. Qed.

Example C117_arm_example : Screw.chain_ok SolverLoopExamples.xc /\ opened dev SolverLoopExamples.xc [] SolverLoopExamples.xs /\ numJoints arm = nr_of_joints (KdlSolver.sv_chain SolverLoopExamples.xs) /\ one_per_joint dev SolverLoopExamples.xs.
Proof. exact (conj SolverLoopExamples.xc_ok (conj dev_opened (conj eq_refl dev_one))). Qed.

(** C118: once a tool has been replaced by an earlier one, the pose told is the same as then.  Partial: only the pose told, see below. *)
Theorem C118_told_partial : forall d ch v0 c s h s1 v1 tr x state time s2 v2 h' s1' v1' tr' x' state' time' s2' v2', rigid_links ch -> opened d ch [] v0 -> numJoints c = nr_of_joints ch ->
  six_tools h -> history c s h s1 -> served d v0 (trace_of h) v1 -> exec (stat c true) s1 tr (Done (Some (x, state, time))) s2 -> served d v1 tr v2 ->
  six_tools h' -> history c s h' s1' -> served d v0 (trace_of h') v1' -> exec (stat c true) s1' tr' (Done (Some (x', state', time'))) s2' -> served d v1' tr' v2' ->
  tool_in_use fid h = tool_in_use fid h' -> (forall a a', In (GetEncoders, a) tr -> In (GetEncoders, a') tr' -> vals a = vals a') -> x = x'.
Proof. exact stat_same. Qed.
Print Assumptions C118_told_partial.

Example C118_told_partial_example : exists d v1, rigid_links KdlSolverExamples.crank_chain /\ opened d KdlSolverExamples.crank_chain [] KdlSolverExamples.crank_solver /\ numJoints one = nr_of_joints KdlSolverExamples.crank_chain /\
  exec (stat one true) idle ask_again (Done (Some (row 1, VOCAB_CC_NOT_CONTROLLING, 1))) idle /\ served d KdlSolverExamples.crank_solver ask_again KdlSolverExamples.crank_solver /\
  six_tools there_and_back /\ history one idle there_and_back idle /\ served d KdlSolverExamples.crank_solver (trace_of there_and_back) v1 /\ served d v1 ask_again v1 /\
  tool_in_use fid [] = tool_in_use fid there_and_back /\ tool_in_use fid [(OTool KdlSolverExamples.back, set_back, true)] <> tool_in_use fid there_and_back.
Proof. exact stat_again. Qed.

(** C118: a target that was accepted without a tool is refused for good once a tool has been set and taken away. *)
Theorem C118_accepted_refuted : exists d v c y s tr s' v' h s1 v1, opened d KdlSolverExamples.crank_chain [] v /\ numJoints c = nr_of_joints (KdlSolver.sv_chain v) /\ length y = 6%nat /\
  exec (movj c y) s tr (Done true) s' /\ served d v tr v' /\
  history c s h s1 /\ six_tools h /\ Forall (fun e => snd e = true) h /\ s1 = s /\ tool_in_use fid h = fid /\ served d v (trace_of h) v1 /\
  forall tr b s2 v2, exec (movj c y) s1 tr (Done b) s2 -> served d v1 tr v2 -> b = false.
Proof. exact lost_refuted. Qed.
Print Assumptions C118_accepted_refuted.

(** C119: no position sent to the robot is outside the limits that the robot has told, up to the tolerance of the solver. *)
Theorem C119_limited : forall d robot cc sc c s v h s' v', assembled d robot cc sc c s v -> history c s h s' -> served d v (trace_of h) v' ->
  forall x a q, In (x, a) (trace_of h) -> sends_positions x q -> within_robot_limits robot (numJoints c) q.
Proof. exact positions_limited. Qed.
Print Assumptions C119_limited.

Example C119_limited_example : exists d s' v', assembled d rig_robot rig_file rig_options rig idle rig_solver /\ history rig idle (going_home (KinRep.radToDeg 0)) s' /\
  served d rig_solver (trace_of (going_home (KinRep.radToDeg 0))) v' /\ In (PositionMove [KinRep.radToDeg 0], yes) (trace_of (going_home (KinRep.radToDeg 0))).
Proof. exact rig_moves. Qed.

(** C120: the pose told is the one that the configuration file describes, with the joints where the encoders say that they are, in degrees. *)
Theorem C120_described : forall d robot cc sc c s v n H0 HN h s1 v1 tr x state time s2 v2, assembled d robot cc sc c s v ->
  Config.ch_numLinks cc = Some (Z.of_nat n) -> Forall ConfigSpec.rotary (map (Config.ch_link cc) (seq 0 n)) ->
  ConfigSpec.matrix_at (Config.ch_H0 cc) H0 -> ConfigSpec.matrix_at (Config.ch_HN cc) HN -> rigid H0 -> rigid HN ->
  six_tools h -> history c s h s1 -> served d v (trace_of h) v1 ->
  exec (stat c true) s1 tr (Done (Some (x, state, time))) s2 -> served d v1 tr v2 ->
  exists q f, joints_read n tr q /\ ConfigSpec.links_at (map (Config.ch_link cc) (seq 0 n)) (map (fun a => a * PI / 180) q) f /\ length x = 6%nat /\
    let g := fmul (fmul H0 (fmul f HN)) (tool_in_use fid h) in fp (pose_at x 0) = fp g /\ (regular_log (fM g) -> pose_at x 0 = g).
Proof. exact told_as_described. Qed.
Print Assumptions C120_described.

Example C120_described_example : assembled (crank_dev 0) rig_robot rig_file rig_options rig idle rig_solver /\
  Config.ch_numLinks rig_file = Some (Z.of_nat 1) /\ Forall ConfigSpec.rotary (map (Config.ch_link rig_file) (seq 0 1)) /\
  ConfigSpec.matrix_at (Config.ch_H0 rig_file) fid /\ ConfigSpec.matrix_at (Config.ch_HN rig_file) (at_x (1 / 2)) /\ rigid fid /\ rigid (at_x (1 / 2)) /\
  six_tools [] /\ history rig idle [] idle /\ served (crank_dev 0) rig_solver (trace_of []) rig_solver /\
  exec (stat rig true) idle ask_again (Done (Some (row 1, VOCAB_CC_NOT_CONTROLLING, 1))) idle /\ served (crank_dev 0) rig_solver ask_again rig_solver /\
  regular_log (fM (at_x 1)).
Proof. exact rig_tells. Qed.
