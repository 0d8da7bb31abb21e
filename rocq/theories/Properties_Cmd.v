(** Properties of the single commands of the Cartesian controller. *)
From Coq Require Import Reals ZArith List.
From Verif Require Import Kdl KdlRot Vocab Bcc BccSpec BccKdl BccLineSpec BccCmdSpec BccFacts2 BccExamples BccLineExamples
  BccCmdFacts BccCmdFacts2 BccCmdFacts3 BccCmdFacts4 BccCmdExamples.
Import ListNotations.
Open Scope R_scope.
Local Notation length := List.length.

(** C109: under gravity compensation the torques sent hold the robot where it is, in its rest. *)
Theorem C109_gravity : forall c s tr s1 h s2 balances, exec (gcmp c) s tr (Done true) s1 -> history c s1 h s2 -> Forall (fun e => lets_go_on (fst (fst e))) h ->
  Forall (dynamics (numJoints c) balances) (trace_of h) ->
  forall o t b x a, In (o, t, b) h -> In (x, a) t -> motion x = true ->
  exists q tau, o = OCycle /\ x = SetRefTorques tau /\ joints_read (numJoints c) t q /\ inside c q /\
    balances BASE_FRAME q (still (numJoints c)) (still (numJoints c)) [] tau.
Proof. exact gcmp_balances. Qed.
Print Assumptions C109_gravity.
Example C109_gravity_example : exec (gcmp one) idle torque_modes (Done true) floating /\ history one floating [(OCycle, float, true)] floating /\
  Forall (dynamics (numJoints one) lifts) float /\ In (SetRefTorques [2 * (0 + 10) - 0], yes) float.
Proof. exact gcmp_run. Qed.
(** C109: under force control the torques sent exert the force asked for. *)
Theorem C109_force : forall c f s tr s1 h s2 balances, exec (forc c f) s tr (Done true) s1 -> history c s1 h s2 -> Forall (fun e => lets_go_on (fst (fst e))) h ->
  Forall (dynamics (numJoints c) balances) (trace_of h) -> referenceFrame s <> TCP_FRAME /\
  forall o t b x a, In (o, t, b) h -> In (x, a) t -> motion x = true ->
  exists q v w e tau, o = OCycle /\ x = SetRefTorques tau /\ joints_read (numJoints c) t q /\ inside c q /\ speeds_read (numJoints c) t v /\
    accelerations_read (numJoints c) t w /\ opposite f e /\ balances (referenceFrame s) q v w e tau.
Proof. exact forc_balances. Qed.
Print Assumptions C109_force.
Example C109_force_example : exec (forc one up5) idle torque_modes (Done true) pushing /\ history one pushing [(OCycle, push 5, true)] pushing /\
  Forall (dynamics (numJoints one) lifts) (push 5) /\ In (SetRefTorques [2 * (3 + 10) - - 5], yes) (push 5).
Proof. exact forc_run. Qed.
(** 
    C110: a pose is streamed as joint positions that reach it, or nothing is sent for a reason. *)
Theorem C110_pose : forall c x s tr s' reaches, complete c -> wide c -> exec (pose c x) s tr (Done tt) s' -> Forall (solves_in (numJoints c) reaches) tr ->
  currentState s = VOCAB_CC_NOT_CONTROLLING -> In (streamingCommand s) [VOCAB_CC_POSE; VOCAB_CC_MOVI] -> in_mode (numJoints c) VOCAB_CM_POSITION_DIRECT tr ->
  (exists q q' d, motions tr = [SetPositions q'] /\ joints_read (numJoints c) tr q /\ reaches (referenceFrame s) q q' (poses x) /\ difference q q' d /\ retreating c q d) \/
  (motions tr = [] /\ (refused tr \/ exists q a d, joints_read (numJoints c) tr q /\ In (InvKin x q (referenceFrame s), a) tr /\ difference q (vals a) d /\ ~ retreating c q d)).
Proof. exact pose_streams. Qed.
Print Assumptions C110_pose.
Example C110_pose_example : complete rail /\ wide rail /\ exec (pose rail (row 1)) posing (pose_trace 0 1) (Done tt) posing /\ Forall (solves_in (numJoints rail) rails_any) (pose_trace 0 1) /\
  currentState posing = VOCAB_CC_NOT_CONTROLLING /\ In (streamingCommand posing) [VOCAB_CC_POSE; VOCAB_CC_MOVI] /\ in_mode (numJoints rail) VOCAB_CM_POSITION_DIRECT (pose_trace 0 1) /\
  (exists h, history rail idle h posing).
Proof. exact pose_run. Qed.
(** C110: a twist is streamed as joint velocities that move as asked, or the robot is told to stand still for a reason. *)
Theorem C110_twist : forall c x s tr s' moves k, complete c -> wide c -> length x = (6 * k)%nat -> exec (twist c x) s tr (Done tt) s' -> Forall (moves_as_asked (numJoints c) k moves) tr ->
  currentState s = VOCAB_CC_NOT_CONTROLLING -> streamingCommand s = VOCAB_CC_TWIST -> in_mode (numJoints c) VOCAB_CM_VELOCITY tr ->
  exists w, motions tr = [VelocityMove w] /\
  ((exists q, joints_read (numJoints c) tr q /\ moves (referenceFrame s) q w (twists x) /\ retreating c q w /\ slow c w) \/
   (w = still (numJoints c) /\ (refused tr \/
      exists q a, joints_read (numJoints c) tr q /\ In (DiffInvKin q x (referenceFrame s), a) tr /\ ~ (retreating c q (vals a) /\ slow c (vals a))))).
Proof. exact twist_streams. Qed.
Print Assumptions C110_twist.
Example C110_twist_example : complete one /\ wide one /\ length (row 4) = (6 * 1)%nat /\ exec (twist one (row 4)) streaming twist_trace (Done tt) streaming /\ Forall (moves_as_asked (numJoints one) 1 glides) twist_trace /\
  currentState streaming = VOCAB_CC_NOT_CONTROLLING /\ streamingCommand streaming = VOCAB_CC_TWIST /\ in_mode (numJoints one) VOCAB_CM_VELOCITY twist_trace.
Proof. exact twist_run. Qed.
(** C110: a wrench is streamed as torques that exert it, or no torque is sent for a reason. *)
Theorem C110_wrench_partial : forall c f s tr s' balances, complete c -> exec (wrench c f) s tr (Done tt) s' -> Forall (dynamics (numJoints c) balances) tr ->
  currentState s = VOCAB_CC_NOT_CONTROLLING -> streamingCommand s = VOCAB_CC_WRENCH -> in_mode (numJoints c) VOCAB_CM_TORQUE tr ->
  exists tau, motions tr = [SetRefTorques tau] /\
  ((exists q v w e, joints_read (numJoints c) tr q /\ inside c q /\ speeds_read (numJoints c) tr v /\ accelerations_read (numJoints c) tr w /\ opposite f e /\
      balances (referenceFrame s) q v w e tau) \/
   (tau = still (numJoints c) /\ (refused tr \/ exists q, joints_read (numJoints c) tr q /\ ~ inside c q))).
Proof. exact wrench_streams. Qed.
Print Assumptions C110_wrench_partial.
Example C110_wrench_example : complete one /\ exec (wrench one up5) wrenching wrench_trace (Done tt) wrenching /\ Forall (dynamics (numJoints one) lifts) wrench_trace /\
  currentState wrenching = VOCAB_CC_NOT_CONTROLLING /\ streamingCommand wrenching = VOCAB_CC_WRENCH /\ in_mode (numJoints one) VOCAB_CM_TORQUE wrench_trace.
Proof. exact wrench_run. Qed.
(** C110: when a reading fails no torque is sent, not even those that carry the robot's weight. *)
Theorem C110_weight_refuted : exists c f h s tr s' tau, complete c /\ history c idle h s /\ exec (wrench c f) s tr (Done tt) s' /\ motions tr = [SetRefTorques tau] /\
  exists q, joints_read (numJoints c) tr q /\ inside c q /\ forall v w e, (forall j, 0 <= nth j w 0) -> opposite f e -> lifts BASE_FRAME q v w e tau -> False.
Proof. exact dropped. Qed.
Print Assumptions C110_weight_refuted.
(** 
    C111: in the frame of the tool the target is the pose that the offset is, told in that frame. *)
Theorem C111_tool : forall c xd s tr s' reaches, referenceFrame s = TCP_FRAME -> exec (relj c xd) s tr (Done true) s' ->
  Forall (solves_in (numJoints c) reaches) tr -> moves_to c reaches xd s tr s'.
Proof. exact relj_tool. Qed.
Print Assumptions C111_tool.
Example C111_tool_example : referenceFrame at_tool = TCP_FRAME /\ exec (relj one (row 10)) at_tool slid_tool (Done true) going_tool /\
  Forall (solves_in (numJoints one) rails_from) slid_tool /\ motions slid_tool = [PositionMove [10]].
Proof. exact relj_tool_run. Qed.
(** C111: in the frame of the base the target is the current pose plus the offset, number by number. *)
Theorem C111_base : forall c xd s tr s' reaches k place, referenceFrame s <> TCP_FRAME -> exec (relj c xd) s tr (Done true) s' ->
  Forall (solves_in (numJoints c) reaches) tr -> Forall (tells_poses k place) tr ->
  exists q x y, joints_read (numJoints c) tr q /\ length x = (6 * k)%nat /\ poses x = place q /\ sums x xd y /\ moves_to c reaches y s tr s'.
Proof. exact relj_base. Qed.
Print Assumptions C111_base.
Example C111_base_example : referenceFrame idle <> TCP_FRAME /\ exec (relj one (row 10)) idle slid (Done true) going /\
  Forall (solves_in (numJoints one) rails_any) slid /\ Forall (tells_poses 1 (map at_x)) slid /\ motions slid = [PositionMove [10]].
Proof. exact relj_run. Qed.
(** C111: that is the current pose moved by the offset, if the rotations are along the same axis. *)
Theorem C111_composed_partial : forall x d y i, sums x d y -> (6 * (i + 1) <= length x)%nat -> aligned (rotation_at x i) (rotation_at d i) ->
  moved_by (pose_at d i) (pose_at x i) (pose_at y i).
Proof. exact offset_composed. Qed.
Print Assumptions C111_composed_partial.
Example C111_composed_example : sums [1; 2; 3; 0; 0; PI / 2] [1; 0; 0; 0; 0; - PI] [1 + 1; 2 + 0; 3 + 0; 0 + 0; 0 + 0; PI / 2 + - PI] /\
  aligned (rotation_at [1; 2; 3; 0; 0; PI / 2] 0) (rotation_at [1; 0; 0; 0; 0; - PI] 0).
Proof. exact offset_run. Qed.
(** C111: otherwise it is not, whichever is applied first. *)
Theorem C111_composed_refuted : exists c d h s tr s' x y, history c idle h s /\ referenceFrame s = BASE_FRAME /\ exec (relj c d) s tr (Done true) s' /\
  (exists q a, joints_read (numJoints c) tr q /\ In (FwdKin q, a) tr /\ ok a = true /\ vals a = x) /\
  (exists q q' a, In (InvKin y q BASE_FRAME, a) tr /\ ok a = true /\ vals a = q' /\ motions tr = [PositionMove q']) /\
  fM (pose_at y 0) <> mm (fM (pose_at d 0)) (fM (pose_at x 0)) /\ fM (pose_at y 0) <> mm (fM (pose_at x 0)) (fM (pose_at d 0)).
Proof. exact mixture_refuted. Qed.
Print Assumptions C111_composed_refuted.
(** 
    C112: a command that is turned down does not move the robot, and changes neither the state nor the variables. *)
Theorem C112_rejected_partial : forall c o v s tr s', begins o = Some v -> exec (do_op c o) s tr (Done false) s' ->
  (forall x a, In (x, a) tr -> motion x = true -> ok a = false) /\ currentState s' = currentState s /\ same_configuration s s' /\
  movementStartTime s' = movementStartTime s /\ cmcSuccess s' = cmcSuccess s /\
  ((forall fuel xd, o <> OMovl fuel xd) -> (forall xd, o <> OMovv xd) -> trajectories s' = trajectories s) /\
  ((forall f, o <> OForc f) -> fd s' = fd s).
Proof. exact rejected. Qed.
Print Assumptions C112_rejected_partial.
Example C112_example : begins (OMovj (row 1)) = Some VOCAB_CC_MOVJ_CONTROLLING /\ exec (do_op one (OMovj (row 1))) gliding lost (Done false) gliding.
Proof. exact rejected_run. Qed.
(** C112: while movl keeps the endpoint where it is, a movl that is turned down makes it jump by half a metre. *)
Theorem C112_line_refuted : exists c x y t1 t2 t3 s p, history c idle [(OMovl 0 x, t1, true); (OMovl 0 y, t2, false); (OCycle, t3, true)] s /\
  Forall as_kdl (t1 ++ t2 ++ t3) /\ Forall (solves (numJoints c) on_rails) (t1 ++ t2 ++ t3) /\
  (exists q, joints_read (numJoints c) t1 q /\ In (FwdKin q, give x) t1) /\
  (exists q, motions t3 = [SetPositions q] /\ on_rails q [p]) /\ norm (vsub (fp p) (fp (pose_at x 0))) = 1 / 2.
Proof. exact line_refuted. Qed.
Print Assumptions C112_line_refuted.
(** C112: a force that is turned down replaces the one exerted. *)
Theorem C112_force_refuted : exists c f g t1 t2 t3 s tau a, history c idle [(OForc f, t1, true); (OForc g, t2, false); (OCycle, t3, true)] s /\
  Forall (dynamics (numJoints c) lifts) (t1 ++ t2 ++ t3) /\ In (SetRefTorques tau, a) t3 /\
  exists q v w, joints_read (numJoints c) t3 q /\ speeds_read (numJoints c) t3 v /\ accelerations_read (numJoints c) t3 w /\
    (forall e, opposite f e -> ~ lifts BASE_FRAME q v w e tau) /\ (forall e, opposite g e -> lifts BASE_FRAME q v w e tau).
Proof. exact force_refuted. Qed.
Print Assumptions C112_force_refuted.
(** 
    C113: a command that is accepted replaces the movement in progress, unless it is a joint movement that no joint has to make. *)
Theorem C113_accepted_partial : forall c o v s tr s', begins o = Some v -> exec (do_op c o) s tr (Done true) s' ->
  currentState s' = v \/ ((exists xd, o = OMovj xd \/ o = ORelj xd) /\ s' = s /\ motions tr = []).
Proof. exact accepted. Qed.
Print Assumptions C113_accepted_partial.
Example C113_example : begins (OForc up5) = Some VOCAB_CC_FORC_CONTROLLING /\
  exec (do_op one (OForc up5)) gliding torque_modes (Done true) (setCurrentState VOCAB_CC_FORC_CONTROLLING (set_fd (down 5) gliding)).
Proof. exact accepted_run. Qed.
(** C113: told to go to where it is, a robot that moves at constant velocity moves on. *)
Theorem C113_there_refuted : exists c v x t1 t2 t3 s w, complete c /\ history c idle [(OMovv v, t1, true); (OMovj x, t2, true); (OCycle, t3, true)] s /\
  Forall (fun e => ok (snd e) = true) (t1 ++ t2 ++ t3) /\ motions t3 = [VelocityMove w] /\ nth 0 w 0 <> 0 /\ currentState s = VOCAB_CC_MOVV_CONTROLLING.
Proof. exact glides_on. Qed.
Print Assumptions C113_there_refuted.
(** 
    C114: the joint positions sent are within the joint limits if the solver's are. *)
Theorem C114_inside_partial : forall c o s tr b s', exec (do_op c o) s tr b s' -> Forall (solves_inside c) tr -> within c tr.
Proof. exact positions_inside. Qed.
Print Assumptions C114_inside_partial.
Example C114_example : exec (do_op one (ORelj (row 10))) idle slid (Done true) going /\ Forall (solves_inside one) slid /\ In (PositionMove [10], yes) slid.
Proof. exact inside_run. Qed.
(** C114: if the solver's are not, movj sends them. *)
Theorem C114_movj_refuted : exists c x tr s' q, complete c /\ wide c /\ exec (do_op c (OMovj x)) idle tr (Done true) s' /\
  (exists q0, joints_read (numJoints c) tr q0 /\ inside c q0) /\ motions tr = [PositionMove q] /\ ~ inside c q.
Proof. exact movj_beyond. Qed.
Print Assumptions C114_movj_refuted.
(** C114: so does pose. *)
Theorem C114_pose_refuted : exists c x h s tr s' q, complete c /\ wide c /\ history c idle h s /\ exec (pose c x) s tr (Done tt) s' /\
  (exists q0, joints_read (numJoints c) tr q0 /\ inside c q0) /\ motions tr = [SetPositions q] /\ ~ inside c q.
Proof. exact pose_beyond. Qed.
Print Assumptions C114_pose_refuted.
