(** Theorems about keyboardController (programs/keyboardController). [k_configure] opens the module with a control board, a Cartesian controller or
    both; [k_run] gives the commands sent while keys are pressed and the streaming thread wakes up, one list per event, and
    [None] if the program does something undefined. *)
From Coq Require Import Reals List Bool String Ascii ZArith Lra Lia.
From Verif Require Import Kdl KdlRot KdlRotFacts KinRep Vocab Keyboard KeyboardSpec KeyboardFacts KeyboardFacts2 KeyboardFacts4 KeyboardFacts5 KeyboardFacts6 KeyboardFacts7 KeyboardFacts8.
Import ListNotations.
Open Scope R_scope.
Local Notation length := List.length.
Local Notation concat := List.concat.

(** C57: every joint position command is within the limits of its joint; every joint velocity command is within plus and minus the maximum.
    Missing: the minimum velocity, see below. *)
Theorem C57_limits_partial : forall r a cs0 c s evs css s', k_configure r a = Some (cs0, c, s) -> k_run c evs s = Some (css, s') ->
  (forall j q, In (KPosMove j q) (cs0 ++ concat css) -> exists b lo hi, r = Some b /\ r_limits b j = Some (lo, hi) /\ lo <= q <= hi) /\
  (forall j v, In (KVelMove j v) (cs0 ++ concat css) -> exists b lo hi, r = Some b /\ r_vlimits b j = Some (lo, hi) /\ (0 <= hi -> Rabs v <= hi)).
Proof. exact limits. Qed.
Print Assumptions C57_limits_partial.
Example C57_nonvacuous : exists cs0 c s css s', k_configure (Some (two_axes "pos")) None = Some (cs0, c, s) /\
  k_run c [press "1"; press "q"] s = Some (css, s') /\ concat css = [KPosStop; KPosModes 2; KPosMove 0 90; KPosModes 2; KPosMove 0 60].
Proof. destruct pos_run as (css & s' & R & E). exists [KPosStop], cfg_pos, (st_board JPosition), css, s'. split; [apply conf_pos|]. split; assumption. Qed.
Example C57_nonvacuous_velocity : exists cs0 c s css s', k_configure (Some (two_axes "vel")) None = Some (cs0, c, s) /\
  k_run c [press "1"; press "1"] s = Some (css, s') /\ concat css = [KVelStop; KVelModes 2; KVelMove 0 7; KVelModes 2; KVelMove 0 10].
Proof. destruct vel_run as (css & s' & R & E). exists [KVelStop], cfg_pos, (st_board JVelocity), css, s'. split; [apply conf_vel|]. split; assumption. Qed.
(** C57 is false of the minimum velocity, which is read and not used *)
Theorem C57_minimum_refuted : exists r cs0 c s evs css s' j v lo hi, k_configure (Some r) None = Some (cs0, c, s) /\ k_run c evs s = Some (css, s') /\
  In (KVelMove j v) (concat css) /\ r_vlimits r j = Some (lo, hi) /\ lo < 0 < hi /\ v < lo.
Proof. exact below_minimum. Qed.
Print Assumptions C57_minimum_refuted.

(** C80: a key without a meaning stops the Cartesian motion (and the poses that the thread streams) and the gripper; without a Cartesian
    controller, it stops the joints. Missing: the joints when there is a Cartesian controller, see below. *)
Theorem C80_stop_partial : forall r a cs0 c s evs k e nows css s', k_configure r a = Some (cs0, c, s) -> running evs -> stop_key k ->
  k_run c (evs ++ EKey k e :: map ETick nows) s = Some (css, s') ->
  exists css1 cs, css = css1 ++ cs :: repeat [] (length nows) /\ length css1 = length evs /\
    (a <> None -> In KStop cs /\ cart_motion (cs0 ++ concat css1 ++ cs) = [] /\
       (gripper_motion (cs0 ++ concat css1) <> VOCAB_CC_ACTUATOR_STOP_GRIPPER -> In (KAct VOCAB_CC_ACTUATOR_STOP_GRIPPER (e_act e 0)) cs)) /\
    (a = None -> joint_motion (cs0 ++ concat css1 ++ cs) = None).
Proof. exact stops. Qed.
Print Assumptions C80_stop_partial.
(** C80 is false of the joints when there is a Cartesian controller: the control board is never told to stop *)
Theorem C80_joint_refuted : exists r a cs0 c s evs k e css s', k_configure (Some r) (Some a) = Some (cs0, c, s) /\ running evs /\ stop_key k /\
  k_run c (evs ++ [EKey k e]) s = Some (css, s') /\ joint_motion (cs0 ++ concat css) = Some JVelocity.
Proof. exact joint_not_stopped. Qed.
Print Assumptions C80_joint_refuted.
Example C80_nonvacuous : exists cs0 c s css s', k_configure (Some (two_axes "vel")) (Some ctl_plain) = Some (cs0, c, s) /\ stop_key "013" /\
  k_run c ([press "1"] ++ EKey "013" (fine here 0) :: map ETick []) s = Some (css, s').
Proof.
  destruct still_moving as (css & s' & R & _). exists [KStop], cfg_both, st_both, css, s'. split; [apply conf_both|]. split; [|exact R].
  unfold stop_key; cbn; intuition discriminate.
Qed.

(** C81: whenever a joint is told to move, the last Cartesian velocity has been stopped; and no pose is streamed after a joint key *)
Theorem C81_handover_partial : forall r a cs0 c s evs css s' l1 y l2, k_configure r a = Some (cs0, c, s) -> k_run c evs s = Some (css, s') ->
  cs0 ++ concat css = l1 ++ y :: l2 -> (exists j x, y = KPosMove j x \/ y = KVelMove j x) -> at_rest (cart_motion l1).
Proof. exact handover. Qed.
Print Assumptions C81_handover_partial.
Theorem C81_silent_partial : forall r a cs0 c s evs k e nows css s' j sg, k_configure r a = Some (cs0, c, s) -> running evs -> joint_key k j sg ->
  k_run c (evs ++ EKey k e :: map ETick nows) s = Some (css, s') -> exists css1, css = css1 ++ repeat [] (length nows).
Proof. exact handover_silent. Qed.
Print Assumptions C81_silent_partial.
(** C81 is false the other way round: a Cartesian velocity is sent while a joint velocity has not been stopped *)
Theorem C81_joint_refuted : exists r a cs0 c s evs css s' l1 v l2, k_configure (Some r) (Some a) = Some (cs0, c, s) /\ running evs /\
  k_run c evs s = Some (css, s') /\ cs0 ++ concat css = l1 ++ KMovv v :: l2 /\ ~ at_rest v /\ joint_motion l1 = Some JVelocity.
Proof. exact joint_to_cart. Qed.
Print Assumptions C81_joint_refuted.
Example C81_nonvacuous : exists cs0 c s css s', k_configure (Some (two_axes "vel")) (Some ctl_plain) = Some (cs0, c, s) /\
  k_run c [press "1"; press "a"] s = Some (css, s') /\ concat css = [KStop; KVelModes 2; KVelMove 0 7; KStop; KMovv [5 / 1000; 0; 0; 0; 0; 0]].
Proof. destruct moving_twice as (css & s' & R & E). exists [KStop], cfg_both, st_both, css, s'. split; [apply conf_both|]. split; assumption. Qed.

(** C82: without streaming, each Cartesian key sends the velocity given by the presses since the last stop *)
Theorem C82_velocity : forall r x cs0 c s evs k e css s' n i sg, k_configure r (Some x) = Some (cs0, c, s) -> c_pose x = false -> running evs -> cart_key k i sg ->
  presses (match r with Some _ => true | None => false end) (evs ++ [EKey k e]) n -> k_run c (evs ++ [EKey k e]) s = Some (css, s') ->
  exists css1 pre, css = css1 ++ [pre ++ [KMovv (velocity n)]].
Proof. exact velocities. Qed.
Print Assumptions C82_velocity.
Example C82_nonvacuous : exists cs0 c s css s', k_configure (Some (two_axes "vel")) (Some ctl_plain) = Some (cs0, c, s) /\
  cart_key "a" 0 1 /\ presses true ([press "1"] ++ [press "a"]) (bump 0 1 (fun _ => 0%Z)) /\ k_run c ([press "1"] ++ [press "a"]) s = Some (css, s').
Proof.
  destruct moving_twice as (css & s' & R & _). exists [KStop], cfg_both, st_both, css, s'. split; [apply conf_both|]. split; [apply key_a|]. split; [|exact R].
  apply (pr_cart true [press "1"] "a"%char _ 0 1%Z); [|apply key_a]. apply (pr_stop true [] "1"%char (fine here 0) _ (pr_none true)); cbn; intuition discriminate.
Qed.

(** C83: nothing undefined happens, whatever the keys, if the joint limits are in order *)
Theorem C83_defined : forall r a cs0 c s evs, k_configure r a = Some (cs0, c, s) ->
  (forall b j lo hi, r = Some b -> r_limits b j = Some (lo, hi) -> lo <= hi) -> k_run c evs s <> None.
Proof. exact total. Qed.
Print Assumptions C83_defined.
(** ... and they must be: a joint key with limits in the wrong order is undefined *)
Theorem C83_order : exists r cs0 c s evs, k_configure (Some r) None = Some (cs0, c, s) /\ k_run c evs s = None.
Proof. exact wrong_order. Qed.
Print Assumptions C83_order.
Example C83_nonvacuous : exists cs0 c s, k_configure (Some (two_axes "vel")) (Some ctl_plain) = Some (cs0, c, s) /\
  forall b j lo hi, Some (two_axes "vel") = Some b -> r_limits b j = Some (lo, hi) -> lo <= hi.
Proof.
  eexists; eexists; eexists. split; [apply conf_both|]. intros b j lo hi E L. assert (b = two_axes "vel") as -> by congruence. cbn in L.
  assert (lo = -90 /\ hi = 90) as [-> ->] by (split; congruence). lra.
Qed.

(** C84: with streaming, no pose is sent while the presses add up to nothing *)
Theorem C84_still : forall r x cs0 c s evs t css s' n, k_configure r (Some x) = Some (cs0, c, s) -> c_pose x = true -> running evs -> answering evs ->
  presses (match r with Some _ => true | None => false end) evs n -> (forall i, (i < 6)%nat -> n i = 0%Z) ->
  k_run c (evs ++ [ETick t]) s = Some (css, s') -> exists css1, css = css1 ++ [[]].
Proof. exact stream_still. Qed.
Print Assumptions C84_still.
(** C84: ... in the TCP frame each period sends the displacement of that period (the period is in milliseconds) *)
Theorem C84_tcp : forall r x cs0 c s evs1 k e i sg evs2 t css s' n f0, k_configure r (Some x) = Some (cs0, c, s) -> c_pose x = true -> c_frame x = Some (IZR f0) ->
  let b := match r with Some _ => true | None => false end in
  running evs1 -> answering (evs1 ++ [EKey k e]) -> cart_key k i sg -> Forall (keeps b) evs2 ->
  presses b (evs1 ++ [EKey k e]) n -> ~ (forall i, (i < 6)%nat -> n i = 0%Z) -> frame_in_use f0 evs1 TCP_FRAME ->
  k_run c ((evs1 ++ [EKey k e]) ++ evs2 ++ [ETick t]) s = Some (css, s') ->
  exists css1, css = css1 ++ [[KPose (map (fun y => c_period x / 1000 * y) (velocity n))]].
Proof. exact stream_tcp. Qed.
Print Assumptions C84_tcp.
(** C84: ... in the base frame, the pose found when the key was pressed carried by the velocity for the time since then, until ten metres
    (or radians) have been covered *)
Theorem C84_base : forall r x cs0 c s evs1 k e i sg evs2 t css s' n f0 y, k_configure r (Some x) = Some (cs0, c, s) -> c_pose x = true -> c_frame x = Some (IZR f0) ->
  let b := match r with Some _ => true | None => false end in
  running evs1 -> answering (evs1 ++ [EKey k e]) -> cart_key k i sg -> Forall (keeps b) evs2 ->
  presses b (evs1 ++ [EKey k e]) n -> ~ (forall i, (i < 6)%nat -> n i = 0%Z) -> frame_in_use f0 evs1 BASE_FRAME ->
  e_stat e = Some y -> length y = 6%nat -> e_now e <= t ->
  norm (plist (velocity n)) <= 10 -> norm (rlist (velocity n)) <= 29 / 10 ->
  k_run c ((evs1 ++ [EKey k e]) ++ evs2 ++ [ETick t]) s = Some (css, s') ->
  exists css1 z, css = css1 ++ [[KPose z]] /\
    carried y (velocity n) (Rmin (t - e_now e) (10 / Rmax (norm (plist (velocity n))) (norm (rlist (velocity n))))) z.
Proof. exact stream_base. Qed.
Print Assumptions C84_base.
Example C84_nonvacuous : forall f, f = BASE_FRAME \/ f = TCP_FRAME -> exists cs0 c s css s', k_configure None (Some (ctl_stream f)) = Some (cs0, c, s) /\
  answering ([] ++ [press "a"]) /\ cart_key "a" 0 1 /\ presses false ([] ++ [press "a"]) one_a /\ ~ (forall i, (i < 6)%nat -> one_a i = 0%Z) /\
  frame_in_use f [] f /\ norm (plist (velocity one_a)) <= 10 /\ norm (rlist (velocity one_a)) <= 29 / 10 /\
  k_run c (([] ++ [press "a"]) ++ [] ++ [ETick 2]) s = Some (css, s').
Proof.
  intros f F. destruct (stream_runs f 2 F) as (css & s' & R). destruct norms_a as [N1 N2]. exists [KStop], cfg_stream, (st_stream f), css, s'.
  split; [apply conf_stream, F|]. split; [exact answers_a|]. split; [exact key_a|]. split; [apply presses_a|]. split; [exact moves_a|].
  split; [constructor|]. split; [exact N1|]. split; [exact N2|exact R].
Qed.

(** C85: what a joint key commands: in position mode, the encoder plus or minus the step, within limits; in velocity mode, the last velocity plus or
    minus the step, saturated *)
Theorem C85_joint : forall b a cs0 c s evs k e css s' j sg n lo hi vlo vhi,
  k_configure (Some b) a = Some (cs0, c, s) -> running evs -> joint_key k j sg ->
  k_run c (evs ++ [EKey k e]) s = Some (css, s') ->
  r_axes b = Some n -> (j < n)%nat -> r_limits b j = Some (lo, hi) -> r_vlimits b j = Some (vlo, vhi) ->
  e_modes e = true -> e_move e = true ->
  exists css1 pre, let before := cs0 ++ concat css1 ++ pre in
    (joint_mode_in_use (configured_mode b) evs JPosition -> forall q, e_encs e = Some q ->
       exists x, css = css1 ++ [pre ++ [KPosModes n; KPosMove j x]] /\ clamped lo hi (nth j q 0 + sg * r_pstep b) x) /\
    (joint_mode_in_use (configured_mode b) evs JVelocity -> 0 <= r_vstep b -> 0 <= vhi ->
       exists v, css = css1 ++ [pre ++ [KVelModes n; KVelMove j v]] /\ clamped (- vhi) vhi (joint_velocity j before + sg * r_vstep b) v).
Proof. exact joint_commands. Qed.
Print Assumptions C85_joint.
Example C85_nonvacuous : exists cs0 c s css s', k_configure (Some (two_axes "vel")) None = Some (cs0, c, s) /\ joint_key "1" 0 1 /\
  k_run c ([press "1"] ++ [press "1"]) s = Some (css, s') /\ joint_mode_in_use (configured_mode (two_axes "vel")) [press "1"] JVelocity.
Proof.
  destruct vel_run as (css & s' & R & _). exists [KVelStop], cfg_pos, (st_board JVelocity), css, s'. split; [apply conf_vel|]. split; [left; split; reflexivity|].
  split; [exact R|]. apply (jm_other _ [] "1"%char _ _ (jm_none _)). discriminate.
Qed.
