(** Properties of the Cartesian controller (C28-C38, C63-C65). *)
From Coq Require Import Reals ZArith List Bool Lra Lia.
From Verif Require Import Kdl KdlFacts Vocab Bcc BccSpec BccFacts BccFacts2 BccFacts3 BccFacts5 BccFacts6 BccFacts7 BccFacts8 BccFacts9 BccExamples BccExamples2.
Import ListNotations.
Open Scope R_scope.
Local Notation S := Datatypes.S.

(** C28: the speeds a joint move sets are isochronous. *)
Theorem C28_speeds_isochronous : forall c xd s tr o s' v a, exec (movj c xd) s tr o s' -> In (SetRefSpeeds v, a) tr -> exists aq ai T,
  In (GetEncoders, aq) tr /\ In (InvKin xd (fill 0 (numJoints c) (vals aq)) (referenceFrame s), ai) tr /\
  ok aq = true /\ ok ai = true /\ isochronous (numJoints c) (qRefSpeeds c) (vals aq) (vals ai) v T.
Proof. exact movj_speeds. Qed.
Print Assumptions C28_speeds_isochronous.

(** C28: the motion is commanded last, to the solver's solution, after the speeds were accepted. *)
Theorem C28_motion_last : forall c xd s tr o s' t a t1 t2, exec (movj c xd) s tr o s' -> tr = t1 ++ (PositionMove t, a) :: t2 -> exists aq ai v av,
  In (GetEncoders, aq) t1 /\ In (InvKin xd (fill 0 (numJoints c) (vals aq)) (referenceFrame s), ai) t1 /\
  ok aq = true /\ ok ai = true /\ In (SetRefSpeeds v, av) t1 /\ ok av = true /\
  t = firstn (numJoints c) (vals ai) /\ (numJoints c <= length (vals ai))%nat /\ t2 = [].
Proof. exact movj_moves. Qed.
Print Assumptions C28_motion_last.

(** C28: a successful joint move moves exactly when some joint with a reference speed has to. *)
Theorem C28_moves_when_needed : forall c xd s tr s', exec (movj c xd) s tr (Done true) s' -> exists aq ai,
  In (GetEncoders, aq) tr /\ In (InvKin xd (fill 0 (numJoints c) (vals aq)) (referenceFrame s), ai) tr /\ ok aq = true /\ ok ai = true /\
  ((must_move (numJoints c) (qRefSpeeds c) (vals aq) (vals ai) /\
    exists a, In (PositionMove (firstn (numJoints c) (vals ai)), a) tr /\ ok a = true /\ currentState s' = VOCAB_CC_MOVJ_CONTROLLING) \/
   (~ must_move (numJoints c) (qRefSpeeds c) (vals aq) (vals ai) /\ motions tr = [] /\ s' = s)).
Proof. exact movj_outcome. Qed.
Print Assumptions C28_moves_when_needed.
Example C28_example : exec (movj two [1]) idle move_two (Done true) moving_two /\
  isochronous 2 [10; 10] [0; 0] [10; 20] [5; 10] 2.
Proof. split; [exact movj_two|exact isochronous_two]. Qed.

(** C29: the check of joint positions. *)
Theorem C29_positions : forall c q, complete c -> length q = numJoints c ->
  exists b, checkJointLimits c q = Some b /\ (b = true <-> inside c q).
Proof. exact checkJointLimits_ok. Qed.
Print Assumptions C29_positions.
(** C29: the check of joint velocities. *)
Theorem C29_velocities : forall c v, complete c -> (numJoints c <= length v)%nat ->
  exists b, checkJointVelocities c v = Some b /\ (b = true <-> slow c v).
Proof. exact checkJointVelocities_ok. Qed.
Print Assumptions C29_velocities.
(** C29: the check of joint positions with a direction of motion. *)
Theorem C29_directions : forall c q v, complete c -> wide c -> length q = numJoints c -> (numJoints c <= length v)%nat ->
  exists b, checkJointLimitsDir c q v = Some b /\ (b = true <-> retreating c q v).
Proof. exact checkJointLimitsDir_ok. Qed.
Print Assumptions C29_directions.
Example C29_example : complete two /\ wide two /\ inside two [0; 50] /\ ~ inside two [0; 100].
Proof.
  split; [apply two_complete|]. split; [|split].
  - intros [|[|j]] H; cbn in *; [unfold margin; lra|unfold margin; lra|lia].
  - intros [|[|j]] H; cbn in *; [unfold inside_at, margin; cbn; lra|unfold inside_at, margin; cbn; lra|lia].
  - intros H. specialize (H 1%nat ltac:(cbn; lia)). unfold inside_at, margin in H. cbn in H. lra.
Qed.

(** C30: a failing cycle gives the motion up. *)
Theorem C30_failing_cycle : forall c s tr s', exec (run c) s tr (Done tt) s' -> currentState s <> VOCAB_CC_NOT_CONTROLLING ->
  cycle_failed c (encoderErrors s) s tr -> gave_up tr s'.
Proof. exact failing_cycle. Qed.
Print Assumptions C30_failing_cycle.
(** C30: the count of failed readings is that of the cycles just before. *)
Theorem C30_error_count : forall c s h s', history c s h s' -> encoderErrors s' = streak (encoderErrors s) h.
Proof. exact history_errors. Qed.
Print Assumptions C30_error_count.
(** C30: afterwards cycles do nothing, for as long as no command is issued. *)
Theorem C30_then_idle : forall c h s s', currentState s = VOCAB_CC_NOT_CONTROLLING -> Forall (fun e => fst (fst e) = OCycle) h -> history c s h s' ->
  s' = s /\ Forall (fun e => snd (fst e) = []) h.
Proof. exact idle_cycles. Qed.
Print Assumptions C30_then_idle.
(** C30: up to twenty failed readings in a row are tolerated, without sending anything. *)
Theorem C30_tolerated : forall c s tr s', exec (run c) s tr (Done tt) s' -> currentState s <> VOCAB_CC_NOT_CONTROLLING ->
  unreadable tr = true -> (encoderErrors s < 20)%Z -> currentState s' = currentState s /\ motions tr = [] /\ cmcSuccess s' = cmcSuccess s.
Proof. exact tolerated_cycle. Qed.
Print Assumptions C30_tolerated.
Example C30_example : exec (run one) gliding ([(GetEncoders, give [150]); (GetEncoderSpeeds, give [0]); (GetEncoderAccelerations, give [0])] ++ stop_one)
    (Done tt) (set_off (set_cmcSuccess false gliding)) /\
  cycle_failed one (encoderErrors gliding) gliding ([(GetEncoders, give [150]); (GetEncoderSpeeds, give [0]); (GetEncoderAccelerations, give [0])] ++ stop_one).
Proof. split; [exact limit_one|exact limit_one_failed]. Qed.
(** C30: a command refused by the robot, or a failed comparison of poses, stops nothing. *)
Theorem C30_refusal_stops_refuted : exists c s tr s', complete c /\ wide c /\ currentState s <> VOCAB_CC_NOT_CONTROLLING /\ exec (run c) s tr (Done tt) s' /\
  (exists v a, In (VelocityMove v, a) tr /\ ok a = false) /\ (exists x y a, In (PoseDiff x y, a) tr /\ ok a = false) /\
  currentState s' = currentState s /\ cmcSuccess s' = true /\ forall a, ~ In (Stop, a) tr.
Proof. exact refused_unnoticed. Qed.
Print Assumptions C30_refusal_stops_refuted.

(** C31: velocities commanded by a cycle. *)
Theorem C31_cycle : forall c s tr o s' v a, exec (run c) s tr o s' -> In (VelocityMove v, a) tr ->
  slow c v /\ length v = numJoints c /\
  (currentState s = VOCAB_CC_MOVL_CONTROLLING \/ currentState s = VOCAB_CC_MOVV_CONTROLLING) /\
  exists e, In (GetEncoders, e) tr /\ ok e = true /\ inside c (vals e).
Proof. exact cycle_velocity. Qed.
Print Assumptions C31_cycle.
(** C31: velocities commanded by a streamed twist. *)
Theorem C31_twist : forall c x s tr o s' v a, complete c -> wide c -> exec (twist c x) s tr o s' -> In (VelocityMove v, a) tr ->
  v = repeat 0 (numJoints c) \/
  (slow c v /\ length v = numJoints c /\ exists e, In (GetEncoders, e) tr /\ ok e = true /\ retreating c (vals e) v).
Proof. exact twist_velocity. Qed.
Print Assumptions C31_twist.
(** C31: nothing else commands velocities. *)
Theorem C31_others : forall c o s tr b s', exec (do_op c o) s tr b s' -> (forall x, o <> OTwist x) -> o <> OCycle ->
  forall v a, ~ In (VelocityMove v, a) tr.
Proof. exact other_velocity. Qed.
Print Assumptions C31_others.
Example C31_example : exec (run one) gliding (glide true true) (Done tt) gliding /\ In (VelocityMove [4], yes) (glide true true) /\
  exec (twist one [1; 0; 0; 0; 0; 0]) streaming twist_one (Done tt) streaming /\ In (VelocityMove [4], yes) twist_one.
Proof. split; [apply cycle_one|]. split; [cbn; auto 12|]. split; [exact twist_moves|cbn; auto]. Qed.

(** C32: what is preset is what was last successfully preset, with no movement started or
    stopped since. *)
Theorem C32_preset : forall c s h s', settled s -> history c s h s' -> settled s' /\ forall v, (0 < v)%Z -> v <> VOCAB_CC_NOT_SET -> streamingCommand s' = v ->
  (streamingCommand s = v /\ Forall no_change h) \/ preset_last h v.
Proof. exact history_preset. Qed.
Print Assumptions C32_preset.
(** C32: streamed poses, twists and wrenches move only when preset, with no movement in
    progress and all joints in the right mode. *)
Theorem C32_pose : forall c x s tr o s', exec (pose c x) s tr o s' ->
  s' = s /\ (motions tr <> [] -> currentState s = VOCAB_CC_NOT_CONTROLLING /\ In (streamingCommand s) [VOCAB_CC_POSE; VOCAB_CC_MOVI] /\
    exists a tr', tr = (GetControlModes, a) :: tr' /\ all_in_mode (numJoints c) VOCAB_CM_POSITION_DIRECT a).
Proof. exact pose_stream. Qed.
Print Assumptions C32_pose.
Theorem C32_twist : forall c x s tr o s', exec (twist c x) s tr o s' ->
  s' = s /\ (motions tr <> [] -> currentState s = VOCAB_CC_NOT_CONTROLLING /\ In (streamingCommand s) [VOCAB_CC_TWIST] /\
    exists a tr', tr = (GetControlModes, a) :: tr' /\ all_in_mode (numJoints c) VOCAB_CM_VELOCITY a).
Proof. exact twist_stream. Qed.
Print Assumptions C32_twist.
Theorem C32_wrench : forall c x s tr o s', exec (wrench c x) s tr o s' ->
  s' = s /\ (motions tr <> [] -> currentState s = VOCAB_CC_NOT_CONTROLLING /\ In (streamingCommand s) [VOCAB_CC_WRENCH] /\
    exists a tr', tr = (GetControlModes, a) :: tr' /\ all_in_mode (numJoints c) VOCAB_CM_TORQUE a).
Proof. exact wrench_stream. Qed.
Print Assumptions C32_wrench.
Example C32_example : history one idle
  [(OSet VOCAB_CC_CONFIG_STREAMING_CMD (IZR VOCAB_CC_TWIST), preset_one, true); (OTwist [1; 0; 0; 0; 0; 0], twist_one, true)] streaming /\
  motions twist_one <> [] /\ streamingCommand streaming = VOCAB_CC_TWIST.
Proof. split; [exact twist_history|]. split; [discriminate|reflexivity]. Qed.

(** C33: parameters cannot change during a movement. *)
Theorem C33_parameter : forall c k v s tr o s', currentState s <> VOCAB_CC_NOT_CONTROLLING -> exec (setParameter c k v) s tr o s' ->
  tr = [] /\ o = Done false /\ s' = s.
Proof. exact set_frozen. Qed.
Print Assumptions C33_parameter.
Theorem C33_parameters : forall c m s tr o s', currentState s <> VOCAB_CC_NOT_CONTROLLING -> exec (setParameters c m) s tr o s' ->
  tr = [] /\ o = Done false /\ s' = s.
Proof. exact sets_frozen. Qed.
Print Assumptions C33_parameters.
Example C33_example : currentState gliding <> VOCAB_CC_NOT_CONTROLLING /\ exec (setParameter one VOCAB_CC_CONFIG_GAIN 2) gliding [] (Done false) gliding.
Proof. split; [discriminate|]. cbn. repeat split. Qed.
(** C33: but the tool can. *)
Theorem C33_tool_refuted : exists c s x tr s', complete c /\ currentState s <> VOCAB_CC_NOT_CONTROLLING /\ (exists h, history c idle h s) /\
  exec (tool x) s tr (Done true) s'.
Proof. exact tool_refuted. Qed.
Print Assumptions C33_tool_refuted.

(** C34: reading parameters back. *)
Theorem C34_read_back : forall c k v s tr s', exec (setParameter c k v) s tr (Done true) s' -> (whole k -> exists z, v = IZR z) ->
  reads_as k s' (Some v) /\ forall k' r, k' <> k -> (reads_as k' s' r <-> reads_as k' s r).
Proof. exact params_read_back. Qed.
Print Assumptions C34_read_back.
Theorem C34_refused : forall c k v s tr o s', exec (setParameter c k v) s tr o s' -> o <> Done true -> k <> VOCAB_CC_CONFIG_STREAMING_CMD -> s' = s.
Proof. exact params_refused. Qed.
Print Assumptions C34_refused.
Example C34_example : exec (setParameter one VOCAB_CC_CONFIG_GAIN (7 / 2)) idle [] (Done true) (set_gain (7 / 2) idle) /\ ~ whole VOCAB_CC_CONFIG_GAIN.
Proof. split; [exact gain_set|]. intros [X|[X|X]]; discriminate. Qed.
(** C34: periods with a fraction of a millisecond are truncated. *)
Theorem C34_fractions_refuted : exists c s v tr s', exec (setParameter c VOCAB_CC_CONFIG_WAIT_PERIOD v) s tr (Done true) s' /\
  ~ reads_as VOCAB_CC_CONFIG_WAIT_PERIOD s' (Some v).
Proof. exact half_refuted. Qed.
Print Assumptions C34_fractions_refuted.
(** C34: a refused parameter can change another value. *)
Theorem C34_refused_preset_refuted : exists c s k v tr s', exec (setParameter c k v) s tr (Done false) s' /\
  (forall r, reads_as k s r -> ~ reads_as k s' r).
Proof. exact refused_preset. Qed.
Print Assumptions C34_refused_preset_refuted.

(** C35: at most one motion command follows stopControl. *)
Theorem C35_at_most_one_partial : forall c n s l s', together c (Some (stopControl c)) (Ret tt) n s l s' ->
  (length (filter motion_happens (after_return l)) <= 1)%nat.
Proof. exact stop_settles. Qed.
Print Assumptions C35_at_most_one_partial.
(** C35: none, if no cycle was in progress when it returned. *)
Theorem C35_between_cycles : forall c n s l s', together c None (Ret tt) n s l s' -> currentState s = VOCAB_CC_NOT_CONTROLLING -> l = [] /\ s' = s.
Proof. exact idle_thread. Qed.
Print Assumptions C35_between_cycles.
Example C35_example : together one (Some (stopControl one)) (Ret tt) 1 gliding late (set_off gliding).
Proof. exact late_happens. Qed.
(** C35: one can. *)
Theorem C35_none_refuted : exists c n s l s', complete c /\ wide c /\ (exists h, history c idle h s) /\ together c (Some (stopControl c)) (Ret tt) n s l s' /\
  exists h, In h (after_return l) /\ motion_happens h = true.
Proof. exact late_refuted. Qed.
Print Assumptions C35_none_refuted.
(** C35: the thread can use a trajectory after stopControl has destroyed it and returned. *)
Theorem C35_trajectory_alive_refuted : exists c n s l s', complete c /\ together c (Some (stopControl c)) (Ret tt) n s l s' /\ trajectories s' = [] /\
  exists t time a, In (Thread (TrajPos t time, a)) (after_return l).
Proof. exact dangling_refuted. Qed.
Print Assumptions C35_trajectory_alive_refuted.

(** C36: a completed joint move restores the reference speeds. *)
Theorem C36_restored_partial : forall c xd tr h s s' v, history c s ((OMovj xd, tr, true) :: h) s' -> Forall (fun e => fst (fst e) = OCycle) h ->
  length v = numJoints c -> honest (numJoints c) v (tr ++ trace_of h) ->
  (forall w a, In (SetRefSpeeds w, a) (trace_of h) -> ok a = true) ->
  (exists a, In (CheckMotionDone, a) (trace_of h) /\ ok a = true /\ done a = true) ->
  motions tr <> [] -> in_force v (tr ++ trace_of h) = v.
Proof. exact speeds_restored. Qed.
Print Assumptions C36_restored_partial.
Example C36_example : history two idle [(OMovj [1], move_two, true); (OCycle, done_two, true)] (setCurrentState VOCAB_CC_NOT_CONTROLLING moving_two) /\
  honest 2 [10; 10] (move_two ++ trace_of [(OCycle, done_two, true)]) /\ In (CheckMotionDone, finished) (trace_of [(OCycle, done_two, true)]) /\ motions move_two <> [].
Proof. split; [exact speeds_two_history|]. split; [cbn; repeat split; auto|]. split; [cbn; auto 8|discriminate]. Qed.
(** C36: stopping does not restore them. *)
Theorem C36_stopped_refuted : exists c s h s' v, complete c /\ history c s h s' /\ length v = numJoints c /\ honest (numJoints c) v (trace_of h) /\
  (exists xd tr1 tr2, h = [(OMovj xd, tr1, true); (OStop, tr2, true)]) /\ in_force v (trace_of h) <> v.
Proof. exact stop_keeps_speeds. Qed.
Print Assumptions C36_stopped_refuted.
(** C36: nor does a joint move started during another. *)
Theorem C36_overlapping_refuted : exists c s h s' v, complete c /\ history c s h s' /\ length v = numJoints c /\ honest (numJoints c) v (trace_of h) /\
  (exists xd tr1 tr2 tr3, h = [(OMovj xd, tr1, true); (OMovj xd, tr2, true); (OCycle, tr3, true)] /\ In (CheckMotionDone, finished) tr3) /\
  Forall (fun e => ok (snd e) = true) (trace_of h) /\ in_force v (trace_of h) <> v.
Proof. exact again_keeps_speeds. Qed.
Print Assumptions C36_overlapping_refuted.

(** C37: without limits in the configuration, the robot's are used. *)
Theorem C37_robot_limits : forall g dur cmc w posd ff frame timed n refs robot sj started c s,
  open g dur cmc w posd ff frame timed n refs false robot sj started = Some (c, s) ->
  complete c /\ numJoints c = n /\ forall j, (j < n)%nat ->
    robot j = Some (nth j (qMin c) 0, nth j (qMax c) 0, nth j (qdotMin c) 0, nth j (qdotMax c) 0).
Proof. exact open_robot. Qed.
Print Assumptions C37_robot_limits.
Example C37_example : open (1 / 20) 10 50 20 false false BASE_FRAME false 1 (Some [10]) false (fun _ => Some (-100, 100, -10, 10)) 1 true = Some (one, idle).
Proof. exact robot_limits_one. Qed.
(** C37: with limits in the configuration, every cycle of a movement that reads the joints
    reads beyond the end of an empty array. *)
Theorem C37_user_limits_never : forall g dur cmc w posd ff frame timed n refs robot sj started c s,
  open g dur cmc w posd ff frame timed (S n) refs true robot sj started = Some (c, s) ->
  forall s1 tr o s', currentState s1 <> VOCAB_CC_NOT_CONTROLLING -> exec (run c) s1 tr o s' -> unreadable tr = false -> o = Trouble OutOfBounds.
Proof. exact open_user. Qed.
Print Assumptions C37_user_limits_never.
Theorem C37_user_limits_refuted : exists g dur cmc w frame robot c s tr s1 tr2 s2,
  open g dur cmc w false false frame false 1 (Some [10]) true robot 1 true = Some (c, s) /\
  exec (gcmp c) s tr (Done true) s1 /\ exec (run c) s1 tr2 (Trouble OutOfBounds) s2 /\ Forall (fun e => ok (snd e) = true) (tr ++ tr2).
Proof. exact user_limits_refuted. Qed.
Print Assumptions C37_user_limits_refuted.

(** C38: what the fail-fast check guarantees: each sample starts from the one before, is
    within the position limits, and differs from it by no more than the velocity limits
    allow in one second. *)
Theorem C38_checked_partial : forall c fuel x s tr s', enableFailFast c = true -> exec (movl c fuel x) s tr (Done true) s' ->
  exists aq, In (GetEncoders, aq) tr /\ ok aq = true /\ chained (fill 0 (numJoints c) (vals aq)) (solved tr) /\ Forall (checked c) (solved tr).
Proof. exact movl_checked. Qed.
Print Assumptions C38_checked_partial.
Example C38_example : enableFailFast direct = true /\ exec (movl direct 3 [1; 0; 0; 0; 0; 0]) idle checked_line (Done true) on_line.
Proof. split; [reflexivity|exact movl_direct]. Qed.
(** C38: the displacement is not related to the time between samples. *)
Theorem C38_velocity_refuted : exists c fuel xd s tr s' p q a, complete c /\ wide c /\ exec (movl c fuel xd) s tr (Done true) s' /\
  enableFailFast c = true /\ In (GetPeriod, p) tr /\ In (q, a) (solved tr) /\
  ~ slow c (map (fun d => d / (num p / 2)) (displacement (numJoints c) q a)).
Proof. exact failfast_refuted. Qed.
Print Assumptions C38_velocity_refuted.
(** C38: with more than six joints per endpoint the check writes beyond its buffer. *)
Theorem C38_buffer_refuted : exists c fuel xd s tr s', complete c /\ wide c /\ exec (movl c fuel xd) s tr (Trouble OutOfBounds) s' /\
  (forall q a, In (q, a) (solved tr) -> length (vals a) = numJoints c) /\ Forall (fun e => ok (snd e) = true) tr.
Proof. exact overflow_refuted. Qed.
Print Assumptions C38_buffer_refuted.

(** C63: an accepted control period of at least a millisecond is kept as such. *)
Theorem C63_period : forall c v s tr s', exec (setParameter c VOCAB_CC_CONFIG_CMC_PERIOD v) s tr (Done true) s' -> 1 <= v -> (1 <= cmcPeriodMs s')%Z.
Proof. exact period_kept. Qed.
Print Assumptions C63_period.
Example C63_example : exec (setParameter one VOCAB_CC_CONFIG_CMC_PERIOD (IZR 20)) idle [(SetPeriod (20 * (1 / 1000)), yes)] (Done true) (set_cmcPeriodMs 20 idle).
Proof. exact period_twenty. Qed.
(** C63: a shorter one is accepted, and the next controlled movement divides by zero. *)
Theorem C63_short_period_refuted : exists c h s tr s', complete c /\ wide c /\ history c idle h s /\
  (exists tr1 tr2 xd, h = [(OSet VOCAB_CC_CONFIG_CMC_PERIOD (1 / 2), tr1, true); (OMovv xd, tr2, true)]) /\
  exec (run c) s tr (Trouble NotFinite) s' /\ Forall (fun e => ok (snd e) = true) (trace_of h ++ tr).
Proof. exact period_refuted. Qed.
Print Assumptions C63_short_period_refuted.

(** C64: wait, called during a movement and having waited, returns true only if the movement
    was completed. *)
Theorem C64_completed : forall c fuel n s l s' l1 l2, together c (Some (wait c fuel 0)) (Ret tt) n s l s' ->
  currentState s <> VOCAB_CC_NOT_CONTROLLING -> l = l1 ++ Returned true :: l2 -> (exists a, In (Caller (Now, a)) l1) ->
  completed (movementStartTime s) (by_thread l1).
Proof. exact wait_completed. Qed.
Print Assumptions C64_completed.
Example C64_example : together direct (Some (wait direct 2 0)) (Ret tt) 1 on_line waited (set_off on_line) /\ currentState on_line <> VOCAB_CC_NOT_CONTROLLING.
Proof. split; [exact wait_one|discriminate]. Qed.
(** C64: it returns true for a movement that had failed before it was called. *)
Theorem C64_failed_before_refuted : exists c h s s' tr fuel timeout, complete c /\ wide c /\ history c idle h s /\
  (exists xd f t0 t1, h = [(OMovl f xd, t0, true); (OCycle, t1, true)]) /\ cmcSuccess s = false /\
  exec (wait c fuel timeout) s tr (Done true) s'.
Proof. exact wait_refuted. Qed.
Print Assumptions C64_failed_before_refuted.
(** C64: it returns true when the timeout elapses and the movement is cut short. *)
Theorem C64_timeout_refuted : exists c fuel timeout s tr s', complete c /\ currentState s = VOCAB_CC_MOVL_CONTROLLING /\ (exists h, history c idle h s) /\
  exec (wait c fuel timeout) s tr (Done true) s' /\ ~ completed (movementStartTime s) tr /\ exists a, In (Stop, a) tr.
Proof. exact timeout_refuted. Qed.
Print Assumptions C64_timeout_refuted.

(** C65: in well-behaved surroundings no operation reads or writes out of bounds, whatever
    happened before. *)
Theorem C65_no_overrun : forall c k s0 h s o tr e s', complete c -> (enableFailFast c = true -> (numJoints c <= 6 * k)%nat) ->
  currentState s0 = VOCAB_CC_NOT_CONTROLLING -> history c s0 h s ->
  Forall (fun e => six_each k (fst (fst e)) /\ Forall (proper c k) (snd (fst e))) h -> six_each k o -> Forall (proper c k) tr ->
  exec (do_op c o) s tr (Trouble e) s' -> excused o e s'.
Proof. exact history_safe. Qed.
Print Assumptions C65_no_overrun.
Example C65_example : complete one /\ history one idle [(OMovv [1; 0; 0; 0; 0; 0], velocity_start, true); (OCycle, glide true true, true)] gliding /\
  Forall (fun e => six_each 1 (fst (fst e)) /\ Forall (proper one 1) (snd (fst e))) [(OMovv [1; 0; 0; 0; 0; 0], velocity_start, true); (OCycle, glide true true, true)].
Proof. exact proper_history. Qed.
