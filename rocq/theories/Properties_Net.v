(** Properties of the Cartesian controller used through the client and the ports of the server (C121-C123). *)
From Coq Require Import Reals ZArith List.
From Verif Require Import Kdl KdlRot KinRepSpec Vocab Bcc BccSpec BccLineSpec BccCmdSpec BccExamples BccLineExamples BccCmdExamples Sys SysSpec SysExamples SysExamples2 SysExamples3
  Net NetSpec NetFacts NetFacts2 NetExamples.
From Verif Require Screw KdlSolver KdlSolverFacts Config ConfigSpec KinRep SolverLoopSpec SolverLoopExamples Rpc RpcSpec.
Import ListNotations.
Open Scope R_scope.
Local Notation length := List.length.

(** C121: from the moment it is opened, the controller used through the client and the server does the same, and gives back the same, as when it is called directly;
    whatever is called, in any order and between any cycles, with arguments that can be sent. *)
Theorem C121_transparent : forall g dur cmc w posd ff frame timed n refs user robot sj started c s base h s',
  open g dur cmc w posd ff frame timed n refs user robot sj started = Some (c, s) -> sendable h ->
  (session (remotely c base) s h s' <-> session (locally c) s h s').
Proof. exact transparent. Qed.
Print Assumptions C121_transparent.

Example C121_transparent_example : open (1 / 20) 10 50 20 false false BASE_FRAME false 1 (Some [10]) false rig_robot 1 true = Some (rig, idle) /\ sendable (visit (KinRep.radToDeg 0)) /\
  exists s', session (locally rig) idle (visit (KinRep.radToDeg 0)) s'.
Proof. exact rig_visited. Qed.

(** C121: the pose that the client is told is the one that the configuration file describes, with the tool that was set last through the client. *)
Theorem C121_told : forall d robot cc sc c s v n H0 HN, assembled d robot cc sc c s v ->
  Config.ch_numLinks cc = Some (Z.of_nat n) -> Forall ConfigSpec.rotary (map (Config.ch_link cc) (seq 0 n)) ->
  ConfigSpec.matrix_at (Config.ch_H0 cc) H0 -> ConfigSpec.matrix_at (Config.ch_HN cc) HN -> rigid H0 -> rigid HN ->
  forall base h s1 v1 tr x state time s2 v2, sendable h -> six_numbers h -> session (remotely c base) s h s1 -> served d v (calls h) v1 ->
  remotely c base s1 (Method Rpc.RStat) tr (Rpc.Stated x state time) s2 -> served d v1 tr v2 ->
  exists q f, joints_read n tr q /\ ConfigSpec.links_at (map (Config.ch_link cc) (seq 0 n)) (map (fun a => a * PI / 180) q) f /\ length x = 6%nat /\
    let g := fmul (fmul H0 (fmul f HN)) (tool_set fid h) in fp (pose_at x 0) = fp g /\ (regular_log (fM g) -> pose_at x 0 = g).
Proof. exact client_told. Qed.
Print Assumptions C121_told.

Example C121_told_example : forall base, sendable asked_gain /\ six_numbers asked_gain /\ session (remotely rig base) idle asked_gain idle /\ served (crank_dev 0) rig_solver (calls asked_gain) rig_solver /\
  remotely rig base idle (Method Rpc.RStat) ask_again (Rpc.Stated (row 1) VOCAB_CC_NOT_CONTROLLING 1) idle /\ served (crank_dev 0) rig_solver ask_again rig_solver.
Proof. exact rig_client. Qed.
Example C121_file_example : assembled (crank_dev 0) rig_robot rig_file rig_options rig idle rig_solver /\
  Config.ch_numLinks rig_file = Some (Z.of_nat 1) /\ Forall ConfigSpec.rotary (map (Config.ch_link rig_file) (seq 0 1)) /\
  ConfigSpec.matrix_at (Config.ch_H0 rig_file) fid /\ ConfigSpec.matrix_at (Config.ch_HN rig_file) (at_x (1 / 2)) /\ rigid fid /\ rigid (at_x (1 / 2)).
Proof. destruct rig_tells as (A & B & D & E & F & G & H & _). exact (conj A (conj B (conj D (conj E (conj F (conj G H)))))). Qed.

(** C122: whatever messages are sent to the ports, by whomever, no position sent to the robot is outside the limits that the robot has told, up to the tolerance of the solver. *)
Theorem C122_limited : forall d robot cc sc c s v base conv h s' v', assembled d robot cc sc c s v -> session (handled c base conv) s h s' -> served d v (calls h) v' ->
  forall x a q, In (x, a) (calls h) -> sends_positions x q -> within_robot_limits robot (numJoints c) q.
Proof. exact messages_limited. Qed.
Print Assumptions C122_limited.

Example C122_limited_example : forall base conv, exists d s' v', assembled d rig_robot rig_file rig_options rig idle rig_solver /\ session (handled rig base conv) idle (mixture base (KinRep.radToDeg 0)) s' /\
  served d rig_solver (calls (mixture base (KinRep.radToDeg 0))) v' /\ In (PositionMove [KinRep.radToDeg 0], yes) (calls (mixture base (KinRep.radToDeg 0))).
Proof. exact rig_mixture. Qed.

(** C123: a pose sent to the transform port in its representation is the pose that the controller is asked for. *)
Theorem C123_command : forall c base co o u p lp lo rm cmd b s tr b' s', RpcSpec.pose_command cmd -> Rpc.client_send (cmd (lp ++ lo)) = Some b ->
  pose_supported co o = true -> means_pos co lp p -> means o u p lo rm -> regular_log rm \/ o = KinRep.AXIS_ANGLE_SCALED -> lp ++ lo <> [] ->
  answered c base (Rpc.transform co o u) s b tr b' s' ->
  exists x fuel a, length x = 6%nat /\ pose_at x 0 = F rm p /\ exec (method c fuel (cmd x)) s tr (Done a) s' /\ (a = Rpc.Failed <-> b' = Rpc.fail).
Proof. exact transform_command. Qed.
Print Assumptions C123_command.

(** C123: and movj puts the tool there.  Partial: for arms with a spherical wrist, up to the tolerance of C16, and if the closed-form solver does not warn. *)
Theorem C123_movj_partial : forall d ch pre v r w px py c base co o u p lp lo rm s tr b s' v',
  Screw.chain_ok ch -> KdlSolverFacts.strategy (dev_find d) -> opened d ch pre v -> SolverLoopSpec.wrist_problem v r w px py -> numJoints c = nr_of_joints (KdlSolver.sv_chain v) ->
  pose_supported co o = true -> means_pos co lp p -> means o u p lo rm -> regular_log rm \/ o = KinRep.AXIS_ANGLE_SCALED -> lp ++ lo <> [] ->
  answered c base (Rpc.transform co o u) s (Rpc.VVocab VOCAB_CC_MOVJ :: map Rpc.VFloat (lp ++ lo)) tr b s' -> b <> Rpc.fail -> through (unwarned d) v tr v' ->
  exists g q f target, joints_read (numJoints c) tr g /\ seen_from v (referenceFrame s) g (F rm p) target /\ stands v q f /\ within_tolerance v r w px py f target /\
    ((motions tr = [PositionMove q] /\ (exists a, In (PositionMove q, a) tr /\ ok a = true) /\ currentState s' = VOCAB_CC_MOVJ_CONTROLLING) \/
     (motions tr = [] /\ s' = s /\ ~ must_move (numJoints c) (qRefSpeeds c) g q)).
Proof. exact transform_reaches. Qed.
Print Assumptions C123_movj_partial.

Example C123_movj_partial_example : forall base, exists q v b s' v', pose_supported KinRep.CARTESIAN KinRep.AXIS_ANGLE_SCALED = true /\ means_pos KinRep.CARTESIAN [1; 0; 0] (V 1 0 0) /\
  means KinRep.AXIS_ANGLE_SCALED KinRep.DEGREES (V 1 0 0) [0; 0; 0] mid /\
  answered arm base (Rpc.transform KinRep.CARTESIAN KinRep.AXIS_ANGLE_SCALED KinRep.DEGREES) idle (Rpc.VVocab VOCAB_CC_MOVJ :: map Rpc.VFloat ([1; 0; 0] ++ [0; 0; 0])) (to_home q v) b s' /\
  b <> Rpc.fail /\ through (unwarned dev) SolverLoopExamples.xs (to_home q v) v' /\ motions (to_home q v) = [PositionMove q].
Proof. exact arm_transformed. Qed.

(** C123: the state asked for at the transform port tells, in its representation, the pose that the configuration file describes. *)
Theorem C123_told : forall d robot cc sc c s v n H0 HN, assembled d robot cc sc c s v ->
  Config.ch_numLinks cc = Some (Z.of_nat n) -> Forall ConfigSpec.rotary (map (Config.ch_link cc) (seq 0 n)) ->
  ConfigSpec.matrix_at (Config.ch_H0 cc) H0 -> ConfigSpec.matrix_at (Config.ch_HN cc) HN -> rigid H0 -> rigid HN ->
  forall base co o u h s1 v1 tr b s2 v2, sendable h -> six_numbers h -> session (remotely c base) s h s1 -> served d v (calls h) v1 ->
  answered c base (Rpc.transform co o u) s1 [Rpc.VVocab VOCAB_CC_STAT] tr b s2 -> served d v1 tr v2 ->
  (b = Rpc.fail /\ exists a, In (GetEncoders, a) tr /\ ok a = false) \/
  exists q f, joints_read n tr q /\ ConfigSpec.links_at (map (Config.ch_link cc) (seq 0 n)) (map (fun a => a * PI / 180) q) f /\
    let g := fmul (fmul H0 (fmul f HN)) (tool_set fid h) in
    regular_log (fM g) -> writable_pos co (fp g) -> (forall r, norm r <= PI -> rot_of r = fM g -> writable o (fp g) r) ->
    exists lp lo state time, b = RpcSpec.state_message (lp ++ lo) state time /\ means_pos co lp (fp g) /\ means o u (fp g) lo (fM g).
Proof. exact transform_told. Qed.
Print Assumptions C123_told.

Example C123_told_example : forall base, exists b, answered rig base (Rpc.transform KinRep.CARTESIAN KinRep.O_RPY KinRep.DEGREES) idle [Rpc.VVocab VOCAB_CC_STAT] ask_again b idle /\
  forall r, rot_of r = mid -> writable KinRep.O_RPY (V 1 0 0) r.
Proof. exact rig_transformed. Qed.
