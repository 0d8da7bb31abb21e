{
 "claims": [
  {
   "property": "C01",
   "status": "proved",
   "theorems": [
    "C01_fk_rigid",
    "C01_fk_ordered_product"
   ],
   "note": "over real arithmetic"
  },
  {
   "property": "C02",
   "status": "proved",
   "theorems": [
    "C02_exp_one_parameter_group",
    "C02_exp_quarter_turn"
   ],
   "note": "over real arithmetic"
  },
  {
   "property": "C03",
   "status": "proved",
   "theorems": [
    "C03_rebase_is_conjugation"
   ],
   "note": "over real arithmetic"
  },
  {
   "property": "C04",
   "status": "proved",
   "theorems": [
    "C04_change_base",
    "C04_change_tool",
    "C04_append"
   ],
   "note": "distinct objects; self-append is C58"
  },
  {
   "property": "C05",
   "status": "proved",
   "theorems": [
    "C05_reverse_inverts_fk",
    "C05_make_reverse_agrees",
    "C05_reverse_twice"
   ],
   "note": "over real arithmetic"
  },
  {
   "property": "C06",
   "status": "proved",
   "theorems": [
    "C06_to_chain"
   ],
   "note": "over real arithmetic"
  },
  {
   "property": "C07",
   "status": "proved",
   "theorems": [
    "C07_from_chain",
    "C07_round_trip"
   ],
   "note": "joints with unit scale and zero offset, as the property says"
  },
  {
   "property": "C08",
   "status": "partial",
   "theorems": [
    "C08_from_chain_scaled_refuted"
   ],
   "note": "the property is false of the code: witness given; C07 is the guarded form"
  },
  {
   "property": "C09",
   "status": "proved",
   "theorems": [
    "C09_pk1_complete",
    "C09_pk1_sound",
    "C09_pk1_found"
   ],
   "note": "over real arithmetic; angles the library snaps to PI are only right to 1e-6 rad, as the property says"
  },
  {
   "property": "C10",
   "status": "partial",
   "theorems": [
    "C10_pk2_complete_partial",
    "C10_pk2_flag_refuted",
    "C10_pk2_flag_sound"
   ],
   "note": "proved outside the tolerance band (the two intermediate points equal, or further apart than the tolerance); inside it the reachability claim is false (witness); a flag of true guarantees, for all inputs, that each returned pair brings the point within a stated distance of the target"
  },
  {
   "property": "C11",
   "status": "partial",
   "theorems": [
    "C11_pk3_generic_partial",
    "C11_pk3_near_partial",
    "C11_pk3_flag_complete",
    "C11_pk3_flag_sound",
    "C11_pk3_far_refuted"
   ],
   "note": "proved away from the extreme distances and at the smallest one, flag characterised; false at the largest distance (witness)"
  },
  {
   "property": "C12",
   "status": "proved",
   "theorems": [
    "C12_pg1_exact",
    "C12_pg2_exact"
   ],
   "note": "over real arithmetic"
  },
  {
   "property": "C13",
   "status": "partial",
   "theorems": [
    "C13_pg3_generic_partial",
    "C13_pg3_tangent_partial",
    "C13_pg3_flag",
    "C13_pg3_tangent_refuted"
   ],
   "note": "proved away from the tangent position and at it when it lies ahead; false when it lies behind (witness)"
  },
  {
   "property": "C14",
   "status": "partial",
   "theorems": [
    "C14_pg4_complete_partial",
    "C14_pg4_flag_plane_partial",
    "C14_pg4_flag_sound_partial",
    "C14_pg4_stretched_refuted",
    "C14_pg4_flag_refuted"
   ],
   "note": "proved when not fully stretched; false when fully stretched and for off-plane targets (witnesses); what a flag of true guarantees is proved for all inputs, up to stated bounds"
  },
  {
   "property": "C15",
   "status": "partial",
   "theorems": [
    "C15_candidates",
    "C15_every_path",
    "C15_total",
    "C15_own_transforms_partial",
    "C15_own_transforms_refuted",
    "C15_library_steps",
    "C15_total_first"
   ],
   "note": "counts, sizes, flag and the exact frames fed to each step are proved for all steps; that those frames are the candidate's own holds when the steps after the first branching assign the first unknown terms, and is false otherwise (witness)"
  },
  {
   "property": "C16",
   "status": "proved",
   "theorems": [
    "C16_reached",
    "C16_every_point",
    "C16_found",
    "C16_defined"
   ],
   "note": "over real arithmetic, for the arms of that class; the tolerance is explicit (wrist_bound); that the builder finds exactly these steps is a hypothesis, shown to hold for the four robots of the library tests without sliding joints and for the example arm; the flag may be false although a candidate is right"
  },
  {
   "property": "C17",
   "status": "partial",
   "theorems": [
    "C17_complete",
    "C17_total",
    "C17_justified_partial",
    "C17_justified_refuted",
    "C17_null",
    "C17_tested_arms"
   ],
   "note": "completeness, absence of overlap, acceptance and termination (once the random points are drawn) proved; that each step determines its joints is proved except for one-point steps in formulas with sliding joints, where it is false (witness)"
  },
  {
   "property": "C18",
   "status": "proved",
   "theorems": [
    "C18_first_choice",
    "C18_first_choice_gait"
   ],
   "note": "over real arithmetic; candidates, limits and guess of equal length"
  },
  {
   "property": "C19",
   "status": "partial",
   "theorems": [
    "C19_availability_refuted"
   ],
   "note": "the property is false of the code: witness given; C20 says what holds instead"
  },
  {
   "property": "C20",
   "status": "proved",
   "theorems": [
    "C20_branch_kept",
    "C20_branch_kept_gait"
   ],
   "note": "for every history that does not run into undefined behaviour, provided the new candidate list has the chosen index"
  },
  {
   "property": "C21",
   "status": "proved",
   "theorems": [
    "C21_frame_vector_frame",
    "C21_vector_frame_vector",
    "C21_twists_wrenches",
    "C21_wrong_size",
    "C21_always_rigid"
   ],
   "note": "over real arithmetic; KDL rotation logarithm as modelled in KdlRot.v"
  },
  {
   "property": "C22",
   "status": "partial",
   "theorems": [
    "C22_decode",
    "C22_encode",
    "C22_round_trip",
    "C22_euler_yz_refuted"
   ],
   "note": "proved for every supported pair of systems away from (or exactly at) the singularities of the system and of the rotation logarithm; in the Euler YZ system it is false when the tool axis is vertical (witness)"
  },
  {
   "property": "C23",
   "status": "proved",
   "theorems": [
    "C23_unsupported",
    "C23_short_input",
    "C23_supported"
   ],
   "note": "velocity codecs: pose argument of sufficient size (see C62)"
  },
  {
   "property": "C24",
   "status": "proved",
   "theorems": [
    "C24_in_place",
    "C24_velocity_in_place"
   ],
   "note": "the pose argument of the velocity codecs is a different vector"
  },
  {
   "property": "C25",
   "status": "partial",
   "theorems": [
    "C25_round_trip_partial",
    "C25_level_pose_partial",
    "C25_rpy_refuted",
    "C25_axis_angle_refuted"
   ],
   "note": "proved for axis-angle-scaled, for axis-angle below a half turn per second, and for roll-pitch-yaw with a level pose; false otherwise (witnesses)"
  },
  {
   "property": "C26",
   "status": "proved",
   "theorems": [
    "C26_elementary",
    "C26_euler_zyz",
    "C26_euler_yz",
    "C26_update",
    "C26_rigid"
   ],
   "note": "over real arithmetic"
  },
  {
   "property": "C27",
   "status": "partial",
   "theorems": [
    "C27_axis_angle_partial",
    "C27_rigid_partial",
    "C27_degrees_refuted"
   ],
   "note": "the function takes the angle in radians: what it computes is proved, the documented unit is refuted"
  },
  {
   "property": "C28",
   "status": "proved",
   "theorems": [
    "C28_speeds_isochronous",
    "C28_motion_last",
    "C28_moves_when_needed"
   ],
   "note": "any answers of robot, solver, clock and KDL trajectories; over real arithmetic"
  },
  {
   "property": "C29",
   "status": "proved",
   "theorems": [
    "C29_positions",
    "C29_velocities",
    "C29_directions"
   ],
   "note": "any answers of robot, solver, clock and KDL trajectories; over real arithmetic"
  },
  {
   "property": "C30",
   "status": "partial",
   "theorems": [
    "C30_failing_cycle",
    "C30_error_count",
    "C30_then_idle",
    "C30_tolerated",
    "C30_refusal_stops_refuted"
   ],
   "note": "every listed failure except a refused motion command and a failed pose difference, which go unnoticed (witness)"
  },
  {
   "property": "C31",
   "status": "proved",
   "theorems": [
    "C31_cycle",
    "C31_twist",
    "C31_others"
   ],
   "note": "any answers of robot, solver, clock and KDL trajectories; over real arithmetic"
  },
  {
   "property": "C32",
   "status": "proved",
   "theorems": [
    "C32_preset",
    "C32_pose",
    "C32_twist",
    "C32_wrench"
   ],
   "note": "any answers of robot, solver, clock and KDL trajectories; over real arithmetic"
  },
  {
   "property": "C33",
   "status": "partial",
   "theorems": [
    "C33_parameter",
    "C33_parameters",
    "C33_tool_refuted"
   ],
   "note": "proved for setParameter and setParameters; false for tool (witness)"
  },
  {
   "property": "C34",
   "status": "partial",
   "theorems": [
    "C34_read_back",
    "C34_refused",
    "C34_fractions_refuted",
    "C34_refused_preset_refuted"
   ],
   "note": "proved for whole numbers in the integer parameters; false for fractions of a millisecond and for refused presets, which clear the previous one (witnesses)"
  },
  {
   "property": "C35",
   "status": "partial",
   "theorems": [
    "C35_at_most_one_partial",
    "C35_between_cycles",
    "C35_none_refuted",
    "C35_trajectory_alive_refuted"
   ],
   "note": "at most one motion command after stopControl has returned, none if the thread was between cycles; one is possible, and so is the use of a destroyed trajectory (witnesses)"
  },
  {
   "property": "C36",
   "status": "partial",
   "theorems": [
    "C36_restored_partial",
    "C36_stopped_refuted",
    "C36_overlapping_refuted"
   ],
   "note": "proved for a move that is left to complete; false when stopped or when another joint move starts meanwhile (witnesses)"
  },
  {
   "property": "C37",
   "status": "partial",
   "theorems": [
    "C37_robot_limits",
    "C37_user_limits_never",
    "C37_user_limits_refuted"
   ],
   "note": "false: with limits in the configuration every cycle reads out of bounds; without them the limits are those of the robot"
  },
  {
   "property": "C38",
   "status": "partial",
   "theorems": [
    "C38_checked_partial",
    "C38_velocity_refuted",
    "C38_buffer_refuted"
   ],
   "note": "the displacements, not the velocities, are checked; buffer overrun with more than six joints per endpoint (witnesses)"
  },
  {
   "property": "C39",
   "status": "partial",
   "theorems": [
    "C39_same_call_partial",
    "C39_same_streaming",
    "C39_empty_refuted",
    "C39_group_refuted",
    "C39_truncated_refuted"
   ],
   "note": "proved for every method, argument and controller behaviour that the protocol can express; false for empty vectors and maps, for the parameter group read as one parameter, and for fractional vocabulary-valued parameters (witnesses). YARP transport trusted"
  },
  {
   "property": "C40",
   "status": "partial",
   "theorems": [
    "C40_lost_refuted",
    "C40_lost_stat_refuted",
    "C40_never_reported",
    "C40_server_failure_partial"
   ],
   "note": "false: no method but stat reports a lost request, and stat fails inside resize (witnesses); failures announced by the server are reported. YARP leaving the reply empty is trusted"
  },
  {
   "property": "C41",
   "status": "partial",
   "theorems": [
    "C41_fresh",
    "C41_no_arrival_partial",
    "C41_no_stream",
    "C41_answer",
    "C41_no_arrival_refuted"
   ],
   "note": "proved for every history with an arrival, and without one once the clock exceeds the timeout; false before that (witness)"
  },
  {
   "property": "C42",
   "status": "partial",
   "theorems": [
    "C42_last_attached_partial",
    "C42_before_attach_partial",
    "C42_detach_refuted",
    "C42_detach_streaming_refuted",
    "C42_before_attach_refuted",
    "C42_unknown_refuted"
   ],
   "note": "false: the responders keep their pointers after detach, and have none before attach (witnesses); requests only ever reach the last attached controller, the periodic thread only the one attached now"
  },
  {
   "property": "C43",
   "status": "partial",
   "theorems": [
    "C43_pose_converted",
    "C43_pose_refused",
    "C43_state_converted",
    "C43_torque_refuted",
    "C43_second_pose_refuted"
   ],
   "note": "proved for the commands that take one pose and for stat; false for forc and for several poses (witnesses)"
  },
  {
   "property": "C44",
   "status": "partial",
   "theorems": [
    "C44_asibot_forward_partial",
    "C44_asibot_restored",
    "C44_asibot_opened",
    "C44_tools",
    "C44_restored"
   ],
   "note": "proved for KdlSolver and every history; for AsibotSolver with the flange ahead of the first axis (see C48); the tree solver refuses tools"
  },
  {
   "property": "C45",
   "status": "partial",
   "theorems": [
    "C45_restored_partial",
    "C45_restored_refuted",
    "C45_lost_forever"
   ],
   "note": "false: a tool without closed form leaves the solver failing for ever (witness and general theorem); proved for the other histories with the draws of the opening"
  },
  {
   "property": "C46",
   "status": "partial",
   "theorems": [
    "C46_within",
    "C46_best_step",
    "C46_at_target_refuted",
    "C46_at_target_nan"
   ],
   "note": "limits, size and optimality of the step proved; false at the target pose, where every joint is NaN and success is reported (witness and general theorem). The Jacobian of KDL is an oracle"
  },
  {
   "property": "C47",
   "status": "proved",
   "theorems": [
    "C47_asibot_origin",
    "C47_asibot_difference",
    "C47_asibot_equal",
    "C47_composes",
    "C47_associative",
    "C47_inverse",
    "C47_difference_zero",
    "C47_difference"
   ],
   "note": "guard: the rotation of the composition is not within the tolerance of a half turn or of the identity without being one (see C25)"
  },
  {
   "property": "C48",
   "status": "partial",
   "theorems": [
    "C48_forward_position",
    "C48_forward_partial",
    "C48_behind_refuted",
    "C48_inverse",
    "C48_inverse_tcp",
    "C48_found",
    "C48_answers",
    "C48_shoulder_refuted",
    "C48_orientation_refuted"
   ],
   "note": "position proved; orientation proved ahead of the first axis and false behind it; inverse kinematics sound for poses that two angles describe, complete unless the wrist is at the shoulder; false there, and for poses with the wrist bent backwards (witnesses). Eigenvectors of YARP dcm2axis are an oracle"
  },
  {
   "property": "C49",
   "status": "proved",
   "theorems": [
    "C49_base",
    "C49_tcp"
   ],
   "note": "without tool; with one see C69"
  },
  {
   "property": "C50",
   "status": "partial",
   "theorems": [
    "C50_positions",
    "C50_velocities",
    "C50_derivatives",
    "C50_between",
    "C50_outside_refuted"
   ],
   "note": "proved within the interval, and after its end for the third order; false outside otherwise (witnesses)"
  },
  {
   "property": "C51",
   "status": "partial",
   "theorems": [
    "C51_velocity_partial",
    "C51_acceleration_partial",
    "C51_never_refused",
    "C51_velocity_refuted",
    "C51_start_refuted",
    "C51_acceleration_refuted",
    "C51_acceleration_blind"
   ],
   "note": "exact for motions onwards from rest to rest, and for the acceleration of the first order; false for motions backwards, initial velocities and the acceleration of the third order (witnesses)"
  },
  {
   "property": "C52",
   "status": "partial",
   "theorems": [
    "C52_targets_partial",
    "C52_short",
    "C52_self_refuted"
   ],
   "note": "proved unless an endpoint is merged with itself (accepted, its target is then the identity: witness); vectors shorter than the targets are undefined"
  },
  {
   "property": "C53",
   "status": "proved",
   "theorems": [
    "C53_tool",
    "C53_unloaded",
    "C53_plain",
    "C53_continuous"
   ],
   "note": "The command is a function of the contact wrench only, whatever the orientations visited since start, and it is the soft threshold of that wrench; it is Lipschitz in it. Deadbands are assumed not negative (a negative deadband divides by zero on a zero wrench)."
  },
  {
   "property": "C54",
   "status": "partial",
   "theorems": [
    "C54_wait_refuted",
    "C54_wait_partial"
   ],
   "note": "Refuted both ways: a sensor that never becomes ready is accepted (the counter ends at 11, not 10) and one that is ready at the eleventh check is refused. The exact condition is proved."
  },
  {
   "property": "C55",
   "status": "partial",
   "theorems": [
    "C55_velocity_partial",
    "C55_once_partial",
    "C55_wiimote_partial",
    "C55_wiimote_refuted",
    "C55_leap_refuted",
    "C55_centroid_refuted"
   ],
   "note": "proved for the SpaceNavigator in twist mode without the centroid handler; the Wiimote is characterised exactly; false of the Wiimote (ignores fixed axes), of the Leap Motion sensor (no stop) and with the centroid handler (moves fixed axes): witnesses given"
  },
  {
   "property": "C56",
   "status": "partial",
   "theorems": [
    "C56_lost_refuted",
    "C56_refused_partial"
   ],
   "note": "the property is false of the code: witness given; what a refused reading does is proved"
  },
  {
   "property": "C57",
   "status": "partial",
   "theorems": [
    "C57_limits_partial",
    "C57_minimum_refuted"
   ],
   "note": "position limits and the maximum velocity proved for every history; false of the minimum velocity, which the code reads and does not use (witness)"
  },
  {
   "property": "C58",
   "status": "partial",
   "theorems": [
    "C58_append_self_terminates_refuted"
   ],
   "note": "the property is false of the code: self-append never finishes for any non-empty formula"
  },
  {
   "property": "C59",
   "status": "partial",
   "theorems": [
    "C59_translation_flag_refuted"
   ],
   "note": "the property is false of the code: witnesses for both subproblems"
  },
  {
   "property": "C60",
   "status": "partial",
   "theorems": [
    "C60_rates_partial",
    "C60_rates_refuted"
   ],
   "note": "false in the documented order of the rates (witness); proved for the reverse order"
  },
  {
   "property": "C61",
   "status": "proved",
   "theorems": [
    "C61_names",
    "C61_other_names"
   ],
   "note": ""
  },
  {
   "property": "C62",
   "status": "partial",
   "theorems": [
    "C62_pose_size_refuted",
    "C62_pose_size_partial"
   ],
   "note": "false of the code (witness: undefined behaviour); defined whenever the pose is long enough"
  },
  {
   "property": "C63",
   "status": "partial",
   "theorems": [
    "C63_period",
    "C63_short_period_refuted"
   ],
   "note": "false for periods below 1 ms (witness); proved from 1 ms on together with C65"
  },
  {
   "property": "C64",
   "status": "partial",
   "theorems": [
    "C64_completed",
    "C64_failed_before_refuted",
    "C64_timeout_refuted"
   ],
   "note": "proved when wait was called during the movement without timeout; false for movements that failed before and for timeouts (witnesses)"
  },
  {
   "property": "C65",
   "status": "proved",
   "theorems": [
    "C65_no_overrun"
   ],
   "note": "guard: with fail-fast checks at most six joints per endpoint (see C38); a control period of 0 ms (C63) and out-of-range integers in setParameter are listed exceptions"
  },
  {
   "property": "C66",
   "status": "proved",
   "theorems": [
    "C66_asibot_refused",
    "C66_tool_frame",
    "C66_other_frame"
   ],
   "note": "guard as C47"
  },
  {
   "property": "C67",
   "status": "partial",
   "theorems": [
    "C67_returned_partial",
    "C67_reached_refuted"
   ],
   "note": "false: unreachable poses are reported as success (witness); the joints returned are a candidate within limits up to the tolerance"
  },
  {
   "property": "C68",
   "status": "proved",
   "theorems": [
    "C68_shortest"
   ],
   "note": "up to the rounding of joint angles below 0.001 degrees to zero, excluding configurations with the wrist at the shoulder (see C48)"
  },
  {
   "property": "C69",
   "status": "partial",
   "theorems": [
    "C69_tool_partial",
    "C69_rotated_refuted",
    "C69_tcp_refuted"
   ],
   "note": "proved in the base frame for tools that are not rotated; false for rotated ones and in the frame of the tool (witnesses)"
  },
  {
   "property": "C70",
   "status": "proved",
   "theorems": [
    "C70_started",
    "C70_preset"
   ],
   "note": "for every behaviour of the robot"
  },
  {
   "property": "C71",
   "status": "partial",
   "theorems": [
    "C71_spring_refuted",
    "C71_spring_partial"
   ],
   "note": "Refuted: the displacement is expressed in the base frame but the wrench is sent in the TCP frame, so with the TCP turned half a turn about z the spring pushes away. It is proved for a TCP aligned with the base."
  },
  {
   "property": "C72",
   "status": "partial",
   "theorems": [
    "C72_failure_refuted",
    "C72_interrupted_partial"
   ],
   "note": "Refuted: when the sensor fails the thread stops and the module closes without stopping the robot, leaving the last twist in force. Proved for modules that end by interruption. How RFModule ends is trusted."
  },
  {
   "property": "C73",
   "status": "proved",
   "theorems": [
    "C73_mode",
    "C73_configure"
   ],
   "note": ""
  },
  {
   "property": "C74",
   "status": "partial",
   "theorems": [
    "C74_gripper_partial",
    "C74_obstacle_refuted"
   ],
   "note": "proved for every cycle without a near obstacle; false with one: witness given"
  },
  {
   "property": "C75",
   "status": "partial",
   "theorems": [
    "C75_half_partial",
    "C75_wiimote_refuted",
    "C75_leap_refuted"
   ],
   "note": "proved for the SpaceNavigator; false of the Wiimote and of the Leap Motion sensor: witnesses given"
  },
  {
   "property": "C76",
   "status": "proved",
   "theorems": [
    "C76_centroid"
   ],
   "note": "for centroids whose rotation KDL recovers from its matrix (in the centre, or not within 1e-6 of it and not beyond half a turn)"
  },
  {
   "property": "C77",
   "status": "proved",
   "theorems": [
    "C77_pose"
   ],
   "note": "the initial pose has six components, as ICartesianControl says"
  },
  {
   "property": "C78",
   "status": "partial",
   "theorems": [
    "C78_obstacle_partial",
    "C78_forgotten_refuted",
    "C78_leap_refuted"
   ],
   "note": "proved for the cycle that sees the obstacle, with the SpaceNavigator and the Wiimote (C55_wiimote_partial); false afterwards if no new reading has arrived, and of the Leap Motion sensor: witnesses given"
  },
  {
   "property": "C79",
   "status": "proved",
   "theorems": [
    "C79_pose",
    "C79_twist"
   ],
   "note": "orientation recovered for rotations away from the singularities of the rotation vector; cycles without gripper commands and obstacles, and poses that are not all zeros"
  },
  {
   "property": "C80",
   "status": "partial",
   "theorems": [
    "C80_stop_partial",
    "C80_joint_refuted"
   ],
   "note": "proved for the Cartesian motion, the streamed poses and the gripper, and for the joints when there is no Cartesian controller; false of the joints with both devices: the control board is never told to stop (witness). A Cartesian controller that drives the same joints would stop them by itself"
  },
  {
   "property": "C81",
   "status": "partial",
   "theorems": [
    "C81_handover_partial",
    "C81_silent_partial",
    "C81_joint_refuted"
   ],
   "note": "proved from Cartesian to joint motions; false the other way round: the control board is never told to stop (witness)"
  },
  {
   "property": "C82",
   "status": "proved",
   "theorems": [
    "C82_velocity"
   ],
   "note": ""
  },
  {
   "property": "C83",
   "status": "proved",
   "theorems": [
    "C83_defined",
    "C83_order"
   ],
   "note": "and refuted by C83_order without ordered limits (std::clamp); the order is a precondition"
  },
  {
   "property": "C84",
   "status": "proved",
   "theorems": [
    "C84_still",
    "C84_tcp",
    "C84_base"
   ],
   "note": "the controller answers; orientation for rotations whose vector KDL recovers (see C25); in the base frame up to ten metres or radians of path, where the line ends"
  },
  {
   "property": "C85",
   "status": "proved",
   "theorems": [
    "C85_joint"
   ],
   "note": "steps and maximum velocity not negative"
  },
  {
   "property": "C86",
   "status": "proved",
   "theorems": [
    "C86_forward"
   ],
   "note": "every link is described (known Type or D-H parameters); joint values in degrees, see C87"
  },
  {
   "property": "C87",
   "status": "partial",
   "theorems": [
    "C87_units_partial",
    "C87_prismatic_refuted"
   ],
   "note": "proved for rotary joints; prismatic joint values are multiplied by pi/180 as well (witness)"
  },
  {
   "property": "C88",
   "status": "partial",
   "theorems": [
    "C88_joints_partial",
    "C88_typo_refuted",
    "C88_missing",
    "C88_limits"
   ],
   "note": "a link with a misspelt Type is left out without notice (witness); proved for described links, missing links and limits"
  },
  {
   "property": "C89",
   "status": "proved",
   "theorems": [
    "C89_forward",
    "C89_unique",
    "C89_independent"
   ],
   "note": "described links; KDL tree construction and recursive forward kinematics modelled from their documented behaviour"
  },
  {
   "property": "C90",
   "status": "proved",
   "theorems": [
    "C90_chain"
   ],
   "note": "numLinks given"
  },
  {
   "property": "C91",
   "status": "partial",
   "theorems": [
    "C91_back_partial",
    "C91_shifted_refuted"
   ],
   "note": "proved if merged endpoints come last; otherwise the targets are shifted (witness)"
  },
  {
   "property": "C92",
   "status": "proved",
   "theorems": [
    "C92_tree",
    "C92_chain",
    "C92_others",
    "C92_others_tree"
   ],
   "note": "KDL solvers are parameters"
  },
  {
   "property": "C93",
   "status": "proved",
   "theorems": [
    "C93_chain",
    "C93_tree"
   ],
   "note": "the contract of the KDL velocity solvers is a hypothesis (faithful_chain, faithful_tree)"
  },
  {
   "property": "C94",
   "status": "proved",
   "theorems": [
    "C94_chain",
    "C94_tree"
   ],
   "note": "KDL dynamics are parameters"
  },
  {
   "property": "C95",
   "status": "proved",
   "theorems": [
    "C95_follows"
   ],
   "note": "readings are handled one at a time; the twist stays in force if readings cease"
  },
  {
   "property": "C96",
   "status": "proved",
   "theorems": [
    "C96_rest",
    "C96_grasp",
    "C96_no_move",
    "C96_failed",
    "C96_frame"
   ],
   "note": "readings are handled one at a time; the interruption of a reading in progress lives in the runtime"
  },
  {
   "property": "C97",
   "status": "partial",
   "theorems": [
    "C97_points_partial",
    "C97_pose_refuted"
   ],
   "note": "the points aimed at by steps of one or two rotations are proved in place; the pose as a whole is not implied: false for an arm of one joint (witness). For the arms of C16 the whole pose is guaranteed"
  },
  {
   "property": "C98",
   "status": "proved",
   "theorems": [
    "C98_reached"
   ],
   "note": "over real arithmetic; that the builder finds the usual four steps is a hypothesis (see C16); the C16 tolerance applies; a warning (code 100) carries no guarantee (C67)"
  },
  {
   "property": "C99",
   "status": "proved",
   "theorems": [
    "C99_answered",
    "C99_round_trip"
   ],
   "note": "over real arithmetic, for regular poses whose rotation vector can be read back (C21); for the first use of the selector only: afterwards the branch is kept (C20) and other branches are refused (C19)"
  },
  {
   "property": "C100",
   "status": "partial",
   "theorems": [
    "C100_agrees_partial",
    "C100_segments",
    "C100_reversed_refuted"
   ],
   "note": "proved for chains with joints of plain sense; false of joints of reversed sense or with a scale (witness), as C08"
  },
  {
   "property": "C101",
   "status": "proved",
   "theorems": [
    "C101_reached",
    "C101_found",
    "C101_defined"
   ],
   "note": "over real arithmetic, with the tolerances of the code in the bound; that the builder finds the usual five steps is a hypothesis, machine-checked for the Stanford arm of the tests; the flag may be false although a candidate is right, so reachability itself is not claimed"
  },
  {
   "property": "C102",
   "status": "proved",
   "theorems": [
    "C102_reached",
    "C102_found",
    "C102_defined"
   ],
   "note": "over real arithmetic, with the tolerances of the code in the bound; that the builder finds the usual steps is a hypothesis, machine-checked for the IRB 6620LX of the tests; the folded position is excluded in the claim (C14 shows that PG4 is wrong there)"
  },
  {
   "property": "C103",
   "status": "partial",
   "theorems": [
    "C103_reached_partial",
    "C103_tilted_refuted",
    "C103_found",
    "C103_defined"
   ],
   "note": "proved for targets that keep the common direction of the axes; false otherwise: a target that is upside down is reported reachable (witness); the folded position is excluded (C14); that the builder finds the usual steps is a hypothesis, machine-checked for the IRB 910SC of the tests"
  },
  {
   "property": "C104",
   "status": "proved",
   "theorems": [
    "C104_on_line"
   ],
   "note": "over real arithmetic; KDL's line and trapezoidal profile are modelled in KdlTraj.v (trusted); the solver is an oracle with the contract that its solutions reach the pose; start and target at a distance that KDL's tolerances see; the pose is sent through its rotation vector, so it must be regular (C21)"
  },
  {
   "property": "C105",
   "status": "partial",
   "theorems": [
    "C105_near_partial",
    "C105_end_partial",
    "C105_arrival_refuted",
    "C105_several_refuted"
   ],
   "note": "proved: success means that the time of one of the lines is over, and a position sent within d seconds of the end is at most 5 d^2 (metres, radians) short; false: the target itself is never sent (witness), and with several endpoints success is told when the first line ends, the others possibly centimetres short (witness)"
  },
  {
   "property": "C106",
   "status": "proved",
   "theorems": [
    "C106_steered"
   ],
   "note": "over real arithmetic; the difference of poses is what the solver tells (C98 and KdlSolver.v say what KDL answers); KDL trajectories as in C104"
  },
  {
   "property": "C107",
   "status": "proved",
   "theorems": [
    "C107_steered"
   ],
   "note": "over real arithmetic; KDL trajectories as in C104; the limits (ten units of path, half a turn per second) are in the claim, C108 shows what happens beyond"
  },
  {
   "property": "C108",
   "status": "partial",
   "theorems": [
    "C108_constant_partial",
    "C108_far_refuted",
    "C108_tool_refuted",
    "C108_spin_refuted"
   ],
   "note": "proved in the base frame for ten units of path and less than half a turn per second; false after ten units of path (told to go back), in the tool frame (told to go three times as fast), and at faster turns (told to turn the other way): witnesses"
  },
  {
   "property": "C109",
   "status": "proved",
   "theorems": [
    "C109_gravity",
    "C109_force"
   ],
   "note": "over real arithmetic; the solver is an oracle with the contract that its torques balance the robot"
  },
  {
   "property": "C110",
   "status": "partial",
   "theorems": [
    "C110_pose",
    "C110_twist",
    "C110_wrench_partial",
    "C110_weight_refuted"
   ],
   "note": "proved for poses and twists; a wrench is exerted or zero torques are sent, which lets a robot with weight fall whenever one reading fails (witness)"
  },
  {
   "property": "C111",
   "status": "partial",
   "theorems": [
    "C111_tool",
    "C111_base",
    "C111_composed_partial",
    "C111_composed_refuted"
   ],
   "note": "proved: in the tool frame the target is the offset told in that frame; in the base frame the six numbers are added one by one, which is the current pose moved by the offset if the rotations are along the same axis (or the offset does not rotate); false otherwise: neither order of composing the rotations (witness)"
  },
  {
   "property": "C112",
   "status": "partial",
   "theorems": [
    "C112_rejected_partial",
    "C112_line_refuted",
    "C112_force_refuted"
   ],
   "note": "proved: no movement is made, the state, the variables and the start time stay, the trajectories stay unless the command is movl or movv, the force stays unless it is forc; false: a movl that is turned down replaces the line of the movl in progress, so that the robot jumps (witness), and a forc that is turned down replaces the force in progress (witness)"
  },
  {
   "property": "C113",
   "status": "partial",
   "theorems": [
    "C113_accepted_partial",
    "C113_there_refuted"
   ],
   "note": "proved unless movj or relj finds that no joint has to move; false then: the movement in progress goes on (witness)"
  },
  {
   "property": "C114",
   "status": "partial",
   "theorems": [
    "C114_inside_partial",
    "C114_movj_refuted",
    "C114_pose_refuted"
   ],
   "note": "proved if the solver returns positions within the limits; false otherwise, for movj and pose (witnesses): pose checks only that a joint at a limit does not go further out"
  },
  {
   "property": "C115",
   "status": "proved",
   "theorems": [
    "C115_told"
   ],
   "note": "proved for every chain accepted by KDL and every history that ends in a stat; the orientation is told exactly outside the neighbourhoods of the singularities of C21"
  },
  {
   "property": "C116",
   "status": "partial",
   "theorems": [
    "C116_movj_partial",
    "C116_pose_partial",
    "C116_line_partial",
    "C116_reach_refuted"
   ],
   "note": "proved for arms with a spherical wrist (the problem of C16), up to its tolerance, for both selection strategies, if the closed-form solver does not raise its warning, of which the controller hears nothing; false without this: movj accepts a target four metres out of reach and moves elsewhere (witness)"
  },
  {
   "property": "C117",
   "status": "partial",
   "theorems": [
    "C117_twist",
    "C117_line",
    "C117_constant_partial"
   ],
   "note": "proved for twist and movl whenever the velocity solver of KDL inverts the velocity exactly at these joints (its contract, otherwise it damps or truncates); for movv in the first ten metres or radians of the path, where KDL ends it"
  },
  {
   "property": "C118",
   "status": "partial",
   "theorems": [
    "C118_told_partial",
    "C118_accepted_refuted"
   ],
   "note": "proved: the pose told is the same; false: after a tool for which no closed-form solution is found, targets accepted before are refused for good, also without that tool (witness)"
  },
  {
   "property": "C119",
   "status": "proved",
   "theorems": [
    "C119_limited"
   ],
   "note": "for the default inverse kinematics of the solver (the closed form, both strategies), and limits taken from the robot"
  },
  {
   "property": "C120",
   "status": "proved",
   "theorems": [
    "C120_described"
   ],
   "note": "for rotary joints (prismatic ones are taken in degrees, see C87) and matrices that are rigid; the orientation exactly outside the neighbourhoods of the singularities of C21"
  },
  {
   "property": "C121",
   "status": "proved",
   "theorems": [
    "C121_transparent",
    "C121_told"
   ],
   "note": "messages are assumed to be delivered in order (a lost one is the matter of C40) and the client asks for the state (the periodic state is that of C41); the arguments excluded are those of C39"
  },
  {
   "property": "C122",
   "status": "proved",
   "theorems": [
    "C122_limited"
   ],
   "note": "for the default inverse kinematics of the solver (the closed form, both strategies), and limits taken from the robot"
  },
  {
   "property": "C123",
   "status": "partial",
   "theorems": [
    "C123_command",
    "C123_movj_partial",
    "C123_told"
   ],
   "note": "proved: the pose asked for and the state told, away from the singularities of each representation; movj puts the tool there for arms with a spherical wrist, up to the tolerance of C16, if the closed-form solver does not raise its warning"
  },
  {
   "property": "C124",
   "status": "partial",
   "theorems": [
    "C124_contains",
    "C124_outer",
    "C124_reachable_refuted"
   ],
   "note": "proved: the box contains the initial position and lies inside the outer box, and what the outer box is; refuted: positions of the reported box may be unreachable even in a convex region (a flag keeps its value from an earlier layer)"
  },
  {
   "property": "C125",
   "status": "partial",
   "theorems": [
    "C125_largest_refuted",
    "C125_largest_partial"
   ],
   "note": "refuted: boxes that begin at the initial position are never tried, nor those that end where the outer box ends (a box 27 times smaller is reported); proved: it is the largest one of those that begin strictly before the initial position and end strictly before the outer box when two layers are reachable"
  },
  {
   "property": "C126",
   "status": "proved",
   "theorems": [
    "C126_candidates",
    "C126_answers"
   ],
   "note": ""
  },
  {
   "property": "C127",
   "status": "partial",
   "theorems": [
    "C127_answered_refuted",
    "C127_blocked"
   ],
   "note": "refuted: with the limits of a rotary joint beyond half a turn nothing is ever answered; proved within half a turn for arms with a spherical wrist (C99)"
  },
  {
   "property": "C128",
   "status": "partial",
   "theorems": [
    "C128_line",
    "C128_reach_refuted"
   ],
   "note": "proved whenever the closed-form problem is that of an arm with a spherical wrist (the one that is found), up to its tolerance, as long as no warning is printed; refuted otherwise: the joint positions are sent in spite of the warning, and the tool is left more than ten centimetres away from the line when the goal is out of reach"
  },
  {
   "property": "C129",
   "status": "partial",
   "theorems": [
    "C129_limits_refuted",
    "C129_half_turn"
   ],
   "note": "refuted: the limits are told in degrees and compared with radians, an elbow limited to 90 degrees is sent further; proved: what is sent is within half a turn, so limits of half a turn or more are respected"
  },
  {
   "property": "C130",
   "status": "partial",
   "theorems": [
    "C130_ends_refuted",
    "C130_ends"
   ],
   "note": "refuted: the velocity prevails over the duration, and the program ends on the way (two seconds at 0.05 metres per second); proved if the duration is enough for the velocity and acceleration"
  },
  {
   "property": "C131",
   "status": "proved",
   "theorems": [
    "C131_speed"
   ],
   "note": "over real arithmetic; KDL trajectories as in C104"
  },
  {
   "property": "C132",
   "status": "partial",
   "theorems": [
    "C132_seven_refuted",
    "C132_six",
    "C132_defined"
   ],
   "note": "refuted: with seven axes the control modes are read beyond their vector; proved: it only starts with six axes and then all cycles are defined"
  },
  {
   "property": "C133",
   "status": "partial",
   "theorems": [
    "C133_stuck_refuted",
    "C133_moved"
   ],
   "note": "refuted: with limits of 5 and 100 degrees in one joint nothing is ever sent (compared with radians); proved for lower limits of at most -pi degrees and upper limits of at least pi degrees, as the numbers are compared"
  },
  {
   "property": "C134",
   "status": "partial",
   "theorems": [
    "C134_jump_refuted",
    "C134_still"
   ],
   "note": "refuted: a straight arm is sent half a turn of its elbow away (the third subproblem answers the wrong side when its circle is touched from outside); proved away from the singular postures"
  },
  {
   "property": "C135",
   "status": "proved",
   "theorems": [
    "C135_gravity"
   ],
   "note": "over real arithmetic, for rigid links; the recursive algorithm of KDL is modelled and trusted"
  },
  {
   "property": "C136",
   "status": "proved",
   "theorems": [
    "C136_force"
   ],
   "note": "over real arithmetic, for rigid links; the recursive algorithm of KDL is modelled and trusted"
  },
  {
   "property": "C137",
   "status": "proved",
   "theorems": [
    "C137_motion",
    "C137_only",
    "C137_any"
   ],
   "note": "over real arithmetic, for rigid links; the recursive algorithm of KDL is modelled and trusted"
  },
  {
   "property": "C138",
   "status": "partial",
   "theorems": [
    "C138_gravity",
    "C138_weight_refuted"
   ],
   "note": "refuted: the mass of a link whose moments of inertia are left out is ignored, and the link falls; proved if each mass comes with a centre and moments of inertia in a group link_i (those of xyzLink_i are not read), for rotary joints and tools without mass (there is no way to tell that of a tool)"
  },
  {
   "property": "C139",
   "status": "proved",
   "theorems": [
    "C139_force"
   ],
   "note": "while no tool is changed; over real arithmetic"
  },
  {
   "property": "C140",
   "status": "partial",
   "theorems": [
    "C140_line",
    "C140_constant_partial"
   ],
   "note": "along a line: complete, over real arithmetic and where KDL solves the velocities as asked; at constant velocity: told in the frame of the base, and in the first ten metres or radians (see C106 and C107)"
  },
  {
   "property": "C141",
   "status": "partial",
   "theorems": [
    "C141_gain_refuted",
    "C141_gain_partial"
   ],
   "note": "refuted: a gain of 3 is accepted, and doubles what the tool is away in each cycle; proved for gains between 0 and 2"
  },
  {
   "property": "C142",
   "status": "partial",
   "theorems": [
    "C142_gravity",
    "C142_weight_refuted"
   ],
   "note": "refuted: the mass of a link whose moments of inertia are left out is ignored; proved if each mass comes with a centre and moments of inertia in a group link_i, for rigid matrices H0 and HN; the recursive algorithm of KDL is modelled and trusted"
  },
  {
   "property": "C143",
   "status": "proved",
   "theorems": [
    "C143_motion",
    "C143_answers",
    "C143_only"
   ],
   "note": "over real arithmetic, for rigid matrices H0 and HN and TCPs not merged with themselves (see C52); the recursive algorithm of KDL is modelled and trusted"
  },
  {
   "property": "C144",
   "status": "partial",
   "theorems": [
    "C144_kinematic_partial",
    "C144_gravity_partial",
    "C144_forces_partial",
    "C144_pose_refuted",
    "C144_undefined_refuted",
    "C144_gravity_refuted",
    "C144_forces_refuted"
   ],
   "note": "refuted: while the chain is being restored the pose may be that of the base, torques against gravity fail while a tool is added, and torques are wrong when a tool is changed for another one; proved for queries about positions and velocities while tools are only added, and for torques up to a failure"
  },
  {
   "property": "C145",
   "status": "proved",
   "theorems": [
    "C145_serial"
   ],
   "note": "each method that changes the chain holds the lock from its first access to the last"
  },
  {
   "property": "C146",
   "status": "partial",
   "theorems": [
    "C146_instant_partial",
    "C146_torn_refuted",
    "C146_lost_refuted"
   ],
   "note": "refuted: inverse kinematics in the frame of the tool reads the tool twice, and adding a tool reads and writes it with the lock released in between; proved for poses and for inverse kinematics in the frame of the base while one thread changes the tool; diffInvKin, which also reads it twice, is not taken up"
  },
  {
   "property": "C147",
   "status": "partial",
   "theorems": [
    "C147_one_partial",
    "C147_stop_refuted"
   ],
   "note": "refuted: the run of the thread that was in course sends its pose after the robot was stopped; proved that it is at most one"
  },
  {
   "property": "C148",
   "status": "partial",
   "theorems": [
    "C148_instant_partial",
    "C148_defined_partial",
    "C148_undefined_refuted",
    "C148_frame_refuted"
   ],
   "note": "refuted when the key that swaps the frames is pressed during a run of the thread: it uses a trajectory that is not there, or sends a pose of the base as a displacement of the tool; proved if that key is not pressed, and without undefined behaviour if in addition the limits of the joints are in order"
  },
  {
   "property": "C149",
   "status": "partial",
   "theorems": [
    "C149_whole_partial",
    "C149_preset_refuted"
   ],
   "note": "refuted: with a cycle of a joint move still in course, a streaming command preset after stopping the move is lost; proved for every command if no cycle is in course"
  },
  {
   "property": "C150",
   "status": "partial",
   "theorems": [
    "C150_never_back_partial",
    "C150_lost_refuted",
    "C150_aborted_refuted",
    "C150_destroyed_refuted"
   ],
   "note": "refuted: the new movement is lost if a joint move ends at that moment, is stopped if its control mode makes the cycle in course fail, and the thread may use a trajectory that it has destroyed; proved that the robot never goes back to the movement before"
  },
  {
   "property": "C151",
   "status": "partial",
   "theorems": [
    "C151_pose_partial",
    "C151_sorted_partial",
    "C151_prefix_refuted"
   ],
   "note": "refuted: with lengths l1 and l10 in this order, l10 is taken for the value of l1 followed by a zero; proved if no name begins another, in any order, and for any names if the longer ones come first; the evaluation of expressions and the texts of numbers are those of Python"
  },
  {
   "property": "C152",
   "status": "proved",
   "theorems": [
    "C152_printed"
   ],
   "note": "over real arithmetic; the rounding of a number to 15 decimals is that of Python"
  },
  {
   "property": "C153",
   "status": "proved",
   "theorems": [
    "C153_true_once",
    "C153_age_unbounded"
   ],
   "note": "the timeout alone bounds no age, since it counts from the arrival of a message (C153_age_unbounded). Messages are taken to arrive at most once and whole, and RPC requests to be answered at once"
  },
  {
   "property": "C154",
   "status": "partial",
   "theorems": [
    "C154_rpc",
    "C154_fed_partial",
    "C154_overtaken_refuted",
    "C154_late_refuted"
   ],
   "note": "refuted: with a stream, by a message that overtakes another and by one that arrives after the answer to a later RPC request; proved without a stream, and with one if messages keep their order and one has arrived recently at each call"
  },
  {
   "property": "C155",
   "status": "partial",
   "theorems": [
    "C155_as_if",
    "C155_at_most_once",
    "C155_order_partial",
    "C155_all_partial",
    "C155_last_refuted"
   ],
   "note": "refuted as to the order: with udp a command can overtake a later one, and the robot is left with a velocity that is not the last one sent; proved: as if called directly, at most once, in order if the network keeps it, and all of them if nothing is lost"
  },
  {
   "property": "C156",
   "status": "partial",
   "theorems": [
    "C156_stopped",
    "C156_forgotten_refuted"
   ],
   "note": "refuted if the kind of command is selected again before the message arrives; proved until a movement is asked for or a parameter is set"
  },
  {
   "property": "C157",
   "status": "partial",
   "theorems": [
    "C157_samples",
    "C157_ends",
    "C157_end_refuted"
   ],
   "note": "refuted as to the end: with the default duration (10 s) and period (50 ms) the sum of the steps passes the duration by 7.5e-14 s and the target is not checked; proved: samples from the beginning, a step apart, the last one less than a step before the end, and termination, for durations up to 1e9 s. Numbers that are NaN pass the checks"
  },
  {
   "property": "C158",
   "status": "partial",
   "theorems": [
    "C158_rounded",
    "C158_exceeded_refuted"
   ],
   "note": "refuted by one unit in the last place (11 degrees at 30 degrees per second); proved up to 2 units in the last place, and that the joints finish together up to rounding"
  },
  {
   "property": "C159",
   "status": "partial",
   "theorems": [
    "C159_sent",
    "C159_nan",
    "C159_nan_refuted"
   ],
   "note": "refuted: a twist with a NaN passes the checks and every motor is sent NaN; proved: every velocity sent that is a number is within the limits"
  },
  {
   "property": "C160",
   "status": "proved",
   "theorems": [
    "C160_within",
    "C160_defined"
   ],
   "note": "from the decoded position and the two angles of the orientation on; the functions of the C library are parameters of which nothing is assumed"
  },
  {
   "property": "C161",
   "status": "partial",
   "theorems": [
    "C161_margin",
    "C161_edge_refuted"
   ],
   "note": "refuted at the border of the workspace: a target that the stretched arm reaches is refused; proved for targets within reach by a hundredth of a millimetre, assuming sine and cosine right to 1e-12 and atan2 to answer a number"
  },
  {
   "property": "C162",
   "status": "proved",
   "theorems": [
    "C162_served"
   ],
   "note": "the solutions of each call are an input, of which nothing is assumed but the size"
  },
  {
   "property": "C163",
   "status": "partial",
   "theorems": [
    "C163_nearest",
    "C163_computed",
    "C163_nearest_refuted"
   ],
   "note": "refuted by less than the rounding of the sum: displacements of 1 + 2^-60 and 1 count as equal and the first solution is taken; proved up to 1e-10 for up to 20 joints with values up to 100, and for the sums as computed whatever the guess"
  },
  {
   "property": "C164",
   "status": "partial",
   "theorems": [
    "C164_forward_partial",
    "C164_backward",
    "C164_near_refuted"
   ],
   "note": "refuted: if the first axis has to move backward and the target is off the plane at all, the answer has the wrong sign and misses by twice the displacement, at any distance from the plane; proved (to 1.5 times the distance) if the first axis moves forward"
  },
  {
   "property": "C165",
   "status": "partial",
   "theorems": [
    "C165_movl",
    "C165_movl_refuted",
    "C165_pose",
    "C165_movj",
    "C165_other_solver_refuted"
   ],
   "note": "proved with the ASIBOT solver, for any C library; refuted for a solver that does not look at the limits: the controller checks the present positions of the joints, not those that it sends"
  },
  {
   "property": "C166",
   "status": "partial",
   "theorems": [
    "C166_pk1",
    "C166_pg1",
    "C166_pk3_inner_partial",
    "C166_pk3_outer",
    "C166_pg3_ahead_partial",
    "C166_distance_refuted"
   ],
   "note": "proved for PadenKahanOne and PardosGotorOne, for PadenKahanThree if the wanted distance is too short and for PardosGotorThree if the nearest place is ahead; refuted for the others: PadenKahanThree answers the worst rotation of all if the wanted distance is too long, PardosGotorThree moves the wrong way if the nearest place is behind"
  },
  {
   "property": "C167",
   "status": "proved",
   "theorems": [
    "C167_pk1",
    "C167_pk3",
    "C167_pg3"
   ],
   "note": "over real arithmetic"
  },
  {
   "property": "C168",
   "status": "partial",
   "theorems": [
    "C168_pg4_mirror",
    "C168_pg4_aligned_partial",
    "C168_nearest_refuted"
   ],
   "note": "proved for PardosGotorFour, a target too near to the first axis and a point that starts in line with both axes; otherwise refuted: for a target too near the second angle has the wrong sign (C168_pg4_mirror: with the other sign the answer is the nearest posture), for a target too far PardosGotorFour answers a bent arm, and PadenKahanTwo turns the point onto the first axis"
  },
  {
   "property": "C169",
   "status": "partial",
   "theorems": [
    "C169_kept_partial",
    "C169_defined_partial",
    "C169_refuted"
   ],
   "note": "proved for values that are not NaN (gain and duration) and below 2^31 in magnitude (defined, and set to the value); refuted otherwise: NaN is accepted as gain and as duration, and NaN or a number too large for an int as a period is undefined behaviour"
  },
  {
   "property": "C170",
   "status": "partial",
   "theorems": [
    "C170_starts_partial",
    "C170_lasts",
    "C170_jumps",
    "C170_refuted"
   ],
   "note": "proved (it begins at its beginning and does not end before its duration) for every duration that is a positive number or infinite and every length between 10^-20 and 10^20; refuted for the duration NaN, which setParameter accepts: every cycle asks for the end of the line and the movement never ends"
  },
  {
   "property": "C171",
   "status": "partial",
   "theorems": [
    "C171_numbers_partial",
    "C171_asked_partial",
    "C171_gain",
    "C171_refuted",
    "C171_period_refuted"
   ],
   "note": "proved for the velocities that are not NaN; and the solver is asked for numbers only if the gain, the errors and the twists are at most a million and the period is a millisecond or more; refuted with the gain NaN, which setParameter accepts (every velocity sent is NaN), and with a period below a millisecond, which is kept as 0 (NaN is sent when the error is zero)"
  }
 ]
}