(** Properties of the parameters and the control cycles of movl and movv on doubles. *)
From Coq Require Import List ZArith Reals.
From Verif Require Import F64 Rounded RoundedSpec RoundedExamples Vocab AsibotF64 AsibotF64Spec AsibotF64Examples JointMoveF64 JointMoveF64Examples CycleF64 CycleF64Spec CycleF64Facts CycleF64Examples CycleF64Facts2 CycleF64Facts3.
Import ListNotations.
Open Scope R_scope.

(** C169: whatever calls of setParameter are made with values that are not NaN, the gain stays a number that
    is not negative and the duration stays positive. Missing: values that are NaN (C169_refuted). *)
Theorem C169_kept_partial : forall calls p p', in_order p -> Forall (fun c => isnan (snd c) = false) calls ->
  settings p calls = Some p' -> in_order p'.
Proof. exact settings_kept. Qed.
Print Assumptions C169_kept_partial.
Example C169_kept_example :
  let calls := [(true, granted, Gain, lit 1 1); (true, granted, TrajDuration, ofZ (-1)); (true, granted, WaitPeriod, lit 205 1); (true, granted, TrajDuration, ofZ 5)] in
  in_order defaults /\ Forall (fun c => isnan (snd c) = false) calls /\ settings defaults calls = Some (Params (lit 1 1) (ofZ 5) 50 20 BASE_FRAME 0).
Proof. exact settings_example. Qed.
(** C169: with a value below 2^31 in magnitude setParameter is defined, and when it says true the parameter
    is the value, or its whole part for the integer ones. Missing: values that are not (C169_refuted). *)
Theorem C169_defined_partial : forall period_ok preset_ok p k v, finite v = true -> Rabs (val v) < 2147483648 ->
  setParameter period_ok preset_ok p k v <> Undefined /\
  (forall p', setParameter period_ok preset_ok p k v = Set_to p' -> holds k v p').
Proof. exact setParameter_defined. Qed.
Print Assumptions C169_defined_partial.
Example C169_defined_example : finite (lit 205 1) = true /\ Rabs (val (lit 205 1)) < 2147483648 /\
  setParameter true granted defaults CmcPeriod (lit 205 1) = Set_to (Params (lit 5 2) (ofZ 10) 20 30 BASE_FRAME 0).
Proof. exact defined_example. Qed.
(** C169 is false for NaN: it is accepted as a gain and as a duration, and as a wait period it is undefined
    behaviour; so is a wait period of 3 000 000 000 ms. *)
Theorem C169_refuted : exists p, in_order p /\
  (exists p', setParameter true granted p Gain fnan = Set_to p' /\ ~ in_order p') /\
  (exists p', setParameter true granted p TrajDuration fnan = Set_to p' /\ ~ in_order p') /\
  setParameter true granted p WaitPeriod fnan = Undefined /\
  setParameter true granted p WaitPeriod (ofZ 3000000000) = Undefined.
Proof. exact parameters_nan. Qed.
Print Assumptions C169_refuted.

(** C170: a line with a positive duration, infinite or not, begins at its beginning, for every length between
    10^-20 and 10^20. Missing: durations that are NaN (C170_jumps, C170_refuted). *)
Theorem C170_starts_partial : forall w seconds, a_length (len w) -> fltb fzero seconds = true ->
  exists s, m_pos (line w seconds) fzero = pose_on w s /\ finite s = true /\ val s = 0.
Proof. exact line_starts. Qed.
Print Assumptions C170_starts_partial.
Example C170_starts_example : a_length (len along) /\ fltb fzero (p_duration defaults) = true /\
  run forward differences (fun q x => Some (matrix_times (jacobian q) x)) hundred [elbow] defaults [line along (p_duration defaults)] false true fzero [fzero] = Positions [fzero].
Proof. exact starts_example. Qed.
(** C170: and it does not end before its duration. *)
Theorem C170_lasts : forall w seconds t, a_length (len w) -> fltb fzero seconds = true ->
  fltb (m_duration (line w seconds)) t = true -> fltb seconds t = true.
Proof. exact line_lasts. Qed.
Print Assumptions C170_lasts.
Example C170_lasts_example : a_length (len along) /\ fltb fzero (lit 1 1) = true /\
  fltb (m_duration (line along (lit 1 1))) (ofZ 1) = true /\ fltb (m_duration (line along (lit 1 1))) (lit 5 1) = false.
Proof. exact lasts_example. Qed.
(** C170: with a duration that is NaN every cycle, from the first on, asks for the end of the line, and the
    movement is never over. *)
Theorem C170_jumps : forall invKin ws t q, fltb t fzero = false ->
  handleMovlPosd invKin (map (fun w => line w fnan) ws) t q =
  match invKin (concat (map (fun w => pose_on w (len w)) ws)) q with None => Fails | Some a => Positions a end.
Proof. exact line_jumps. Qed.
Print Assumptions C170_jumps.
(** C170 is false: the duration NaN is accepted, and the first cycle sends a joint from 0 to 80 degrees. *)
Theorem C170_refuted : exists w js p p' q a, Forall sane js /\ in_order p /\ a_length (len w) /\
  setParameter true granted p TrajDuration fnan = Set_to p' /\
  hundred (pose_on w fzero) q = Some q /\
  run forward differences (fun q x => Some (matrix_times (jacobian q) x)) hundred js p' [line w (p_duration p')] false true fzero q = Positions a /\
  map val q = [0] /\ map val a = [80].
Proof. exact line_leaps. Qed.
Print Assumptions C170_refuted.

(** C171: the velocities that a control cycle of movl or movv sends are within the limits of their joints,
    those that are numbers; whatever the solver, the parameters, the trajectories and the encoders are.
    Missing: those that are NaN (C171_gain, C171_refuted). *)
Theorem C171_numbers_partial : forall fwdKin poseDiff diffInvKin invKin js p ms movv posd t q v, Forall sane js ->
  run fwdKin poseDiff diffInvKin invKin js p ms movv posd t q = Velocities v -> numbers in_speed js v.
Proof. exact cycle_speeds. Qed.
Print Assumptions C171_numbers_partial.
Example C171_numbers_example : Forall sane [elbow] /\ exists v,
  run forward differences (fun q x => Some (matrix_times (jacobian q) x)) hundred [elbow] defaults [line along (p_duration defaults)] false false (ofZ 1) [fzero] = Velocities [v] /\
  fltb (ofZ 4) v = true /\ fltb v (ofZ 6) = true.
Proof. exact speeds_example. Qed.
(** C171: when the gain, the errors of the pose and the twists of the trajectories are numbers of at most a
    million and the period is of a millisecond or more, the solver is asked only for twists of numbers: a cycle
    is the same with a solver that refuses the others. Missing: other gains and periods (C171_gain,
    C171_period_refuted). *)
Theorem C171_asked_partial : forall fwdKin poseDiff diffInvKin invKin js p ms movv posd t q, usable p ->
  (forall a b, Forall a_number (poseDiff a b)) -> Forall (fun m => Forall a_number (m_vel m t)) ms ->
  run fwdKin poseDiff diffInvKin invKin js p ms movv posd t q =
  run fwdKin poseDiff (fun q x => if forallb finite x then diffInvKin q x else None) invKin js p ms movv posd t q.
Proof. exact asked_numbers. Qed.
Print Assumptions C171_asked_partial.
Example C171_asked_example : usable defaults /\ (forall a b, Forall a_number (still a b)) /\
  Forall (fun m => Forall a_number (m_vel m (ofZ 1))) [line along (p_duration defaults)] /\
  exists v, run forward still (fun q x => Some (matrix_times (jacobian q) x)) hundred [elbow] defaults [line along (p_duration defaults)] false false (ofZ 1) [fzero] = Velocities [v] /\ fltb fzero v = true.
Proof. exact asked_example. Qed.
(** C171: with a gain that is NaN every velocity sent is NaN, as long as the movement lasts. *)
Theorem C171_gain : forall fwdKin poseDiff pinv invKin js p ms movv t q currentX,
  p_gain p = fnan -> checkJointLimits js q = true -> fwdKin q = Some currentX ->
  (movv = true \/ Forall (fun m => fltb (m_duration m) t = false) ms) ->
  let diff := poseDiff (concat (map (fun m => m_pos m t) ms)) currentX in
  (0 < length diff)%nat -> length diff = length (concat (map (fun m => m_vel m t) ms)) ->
  Forall (fun row => length row = length diff) (pinv q) ->
  run fwdKin poseDiff (fun q x => Some (matrix_times (pinv q) x)) invKin js p ms movv false t q = Velocities (map (fun _ => fnan) (pinv q)).
Proof. exact gain_nan. Qed.
Print Assumptions C171_gain.
(** C171 is false: the gain NaN is accepted, and a cycle sends NaN to the motor. *)
Theorem C171_refuted : exists p p' t, in_order p /\ Forall sane [elbow] /\
  setParameter true granted p Gain fnan = Set_to p' /\ fltb fzero t = true /\
  run forward differences (fun q x => Some (matrix_times (jacobian q) x)) hundred [elbow] p' [line along (p_duration p')] false false t [fzero] = Velocities [fnan].
Proof. exact gain_leaps. Qed.
Print Assumptions C171_refuted.
(** C171 is false with ordinary numbers too: a period of half a millisecond is accepted and kept as 0, and the
    first cycle, the tool being where it should be, sends NaN. *)
Theorem C171_period_refuted : exists p p' half, in_order p /\ Forall sane [elbow] /\ finite half = true /\ 0 < val half /\
  setParameter true granted p CmcPeriod half = Set_to p' /\
  run forward differences (fun q x => Some (matrix_times (jacobian q) x)) hundred [elbow] p' [line along (p_duration p')] false false fzero [fzero] = Velocities [fnan].
Proof. exact period_leaps. Qed.
Print Assumptions C171_period_refuted.

(** C165: with the ASIBOT solver the joint positions that the cycles of movl send in position direct mode
    are numbers within the limits, whatever the trajectories (numbers or not), the time and the encoders *)
Theorem C165_movl : forall m s decode fwdKin poseDiff diffInvKin js p ms movv posd t q a, Forall sane js ->
  run fwdKin poseDiff diffInvKin (asibot m s decode js) js p ms movv posd t q = Positions a ->
  within_limits (map qMin js) (map qMax js) a.
Proof. exact movl_within. Qed.
Print Assumptions C165_movl.
Example C165_movl_example : Forall sane arm /\ exists a,
  run forward differences (fun q x => None) (asibot toy default_links plain arm) arm defaults [line raised (p_duration defaults)] false true fzero bent = Positions a.
Proof. exact (conj arm_sane ex_movl). Qed.
(** C165: with another solver they are whatever it answers, 400 degrees or NaN: nothing is checked *)
Theorem C165_movl_refuted : exists (iv iv' : solver) js w q,
  Forall sane js /\ checkJointLimits js q = true /\
  run forward differences (fun q x => None) iv js defaults [line w (p_duration defaults)] false true fzero q = Positions [ofZ 400] /\
  run forward differences (fun q x => None) iv' js defaults [line w (p_duration defaults)] false true fzero q = Positions [fnan].
Proof. exact movl_beyond. Qed.
Print Assumptions C165_movl_refuted.
