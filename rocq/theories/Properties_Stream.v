(** C55, C56, C74, C75, C76, C77, C78, C79: streaming devices (streamingDeviceController). *)
From Coq Require Import Reals Lra List Bool String ZArith Lia.
From Verif Require Import Kdl KdlFacts KdlRot KdlRotFacts KinRep Vocab Ft Stream StreamSpec
  StreamFacts StreamFacts2 StreamFacts3 StreamFacts4 StreamFacts5 StreamFacts6 StreamFacts7.
Import ListNotations.
Open Scope R_scope.
Local Notation S := Datatypes.S.
Local Notation length := List.length.

(** C55 (SpaceNavigator, twist mode): what every cycle sends, after any history *)
Theorem C55_velocity_partial : forall gain names n scaling prox high low nolow k c0 is cs c i,
  scaling <> 0 -> spnav_controller false gain names n scaling prox high low nolow k c0 -> updates c0 is = Some (cs, c) ->
  acquired (u_reading i) ->
  exists cs' c', update c i = Some (cs', c') /\
    let go := acts cs' = [] /\ ~ (prox = true /\ near high (u_prox i)) /\ pushed names (u_reading i) in
    (go -> exists f v, slowdown prox nolow low (u_prox i) f /\ scaled names (scaling * f) (u_reading i) v /\ twists cs' = [v]) /\
    (~ go -> moving cs -> twists cs' = [zeros6]) /\
    (~ go -> ~ moving cs -> twists cs' = []).
Proof. exact velocity_lemma. Qed.
Print Assumptions C55_velocity_partial.

(** C55 (SpaceNavigator, twist mode): every history is defined, stops are sent once, fixed axes never move *)
Theorem C55_once_partial : forall gain names n scaling prox high low nolow k c0 is,
  scaling <> 0 -> spnav_controller false gain names n scaling prox high low nolow k c0 ->
  exists cs c, updates c0 is = Some (cs, c) /\ stops_once cs /\
    (forall v i, In v (twists cs) -> (i < 6)%nat -> is_fixed names i -> nth i v 0 = 0).
Proof. exact once_lemma. Qed.
Print Assumptions C55_once_partial.

Example C55_nonvacuous : exists c0 v c, spnav_controller false 1 None ok_env 1 true 50 10 false no_centroid c0 /\
  updates c0 [read_at 1 push_x None] = Some ([STwist v], c) /\ nonzero v.
Proof.
  destruct first_push as (v & c & U & NZ & _). exists (sp_twist0 None), v, c. split; [apply sp_twist0_controller|].
  split; [cbn [updates]; rewrite U; reflexivity|exact NZ].
Qed.

(** C55 (Wiimote, twist mode): what every cycle sends, after any history *)
Theorem C55_wiimote_partial : forall step names n ics d scaling prox high low nolow k is,
  wii_initialize false step (configureFixedAxes names) n = (ics, Some d) -> scaling <> 0 ->
  exists cs c, updates (configured_sdc (DWii d) scaling prox high low nolow false k) is = Some (cs, c) /\
  forall i, exists cs' c', update c i = Some (cs', c') /\
    (length (u_reading i) = 5%nat ->
       let r j := nth j (u_reading i) 0 in
       let blocked := prox = true /\ near high (u_prox i) in
       (blocked \/ (r 2%nat <> 1 /\ r 3%nat <> 1) -> ~ moving (cs ++ cs')) /\
       (~ blocked -> r 2%nat = 1 \/ r 3%nat = 1 -> exists f, slowdown prox nolow low (u_prox i) f /\ wii_twist step (scaling * f) (u_reading i) cs')).
Proof. exact wii_history. Qed.
Print Assumptions C55_wiimote_partial.

(** C55 is false of the Wiimote: it moves along a fixed axis *)
Theorem C55_wiimote_refuted : exists ics d i cs' c' v, wii_initialize false 1 (configureFixedAxes (Some ["z"%string])) ok_env = (ics, Some d) /\
  update (configured_sdc (DWii d) 1 false 50 10 false false no_centroid) i = Some (cs', c') /\ twists cs' = [v] /\ nth 2 v 0 <> 0.
Proof. exact wii_lemma. Qed.
Print Assumptions C55_wiimote_refuted.

(** C55 is false of the Leap Motion sensor: closing the hand while moving leaves the last velocity in force *)
Theorem C55_leap_refuted : exists c0 is cs c i c', leap_controller false leap_names mid [1; 0; 0; 0; 0; 0] leap_first 1 true 50 10 false no_centroid c0 /\
  updates c0 is = Some (cs, c) /\ moving cs /\ u_reading i = [1000; 0; 0; 0; 0; 0; 1; 0] /\ u_prox i = None /\
  update c i = Some ([SAct VOCAB_CC_ACTUATOR_CLOSE_GRIPPER], c').
Proof. exact leap_grab_lemma. Qed.
Print Assumptions C55_leap_refuted.

(** C55 is false with the centroid handler: it turns around a fixed axis *)
Theorem C55_centroid_refuted : exists ics d i cs' c' v,
  spnav_initialize false 1 (configureFixedAxes (Some ["rotx"%string])) ok_env = (ics, Some d) /\
  update (configured_sdc (DSpnav d) 1 false 50 10 false true (Centroid mid 1 (0, 0) 0)) i = Some (cs', c') /\ twists cs' = [v] /\ nth 3 v 0 <> 0.
Proof. exact centroid_fixed_lemma. Qed.
Print Assumptions C55_centroid_refuted.

(** C56 is false: a sensor that stops answering leaves the robot moving for ever *)
Theorem C56_lost_refuted : exists c0 is cs c, spnav_controller false 1 None ok_env 1 true 50 10 false no_centroid c0 /\ updates c0 is = Some (cs, c) /\ moving cs /\
  forall js, Forall (fun j => u_reading j = []) js -> updates c js = Some ([], c).
Proof. exact lost_lemma. Qed.
Print Assumptions C56_lost_refuted.

(** C56: a cycle whose reading is refused sends nothing and changes nothing, with any device; what follows is as if it had not been *)
Theorem C56_refused_partial : forall c is, Forall (fun i => acquire (c_dev c) (u_reading i) = None) is -> updates c is = Some ([], c).
Proof. exact refused_many. Qed.
Print Assumptions C56_refused_partial.
Example C56_nonvacuous : acquire (c_dev (sp_twist0 None)) [1; 2; 3] = None /\ acquire (c_dev leap_sdc0) [] = None /\ acquire (c_dev (wii0 None)) [0; 0; 1; 0; 0; 0] = None.
Proof. repeat split. Qed.

(** C74: the gripper follows the buttons, after any history, in both modes and with or without the centroid handler *)
Theorem C74_gripper_partial : forall pose gain fixed n ics d scaling prox high low nolow cent k is cs c i cs' c',
  spnav_initialize pose gain fixed n = (ics, Some d) ->
  updates (configured_sdc (DSpnav d) scaling prox high low nolow cent k) is = Some (cs, c) -> update c i = Some (cs', c') ->
  length (u_reading i) = 8%nat -> ~ (prox = true /\ near high (u_prox i)) ->
  gripper (nth 6 (u_reading i) 0) (nth 7 (u_reading i) 0) (last_act cs) (acts cs').
Proof. exact gripper_lemma. Qed.
Print Assumptions C74_gripper_partial.

(** C74 is false with an obstacle: a gripper that is closing goes on closing after the button is released. (The first cycle
    shows the closing, so it is also a case for the theorem above.) *)
Theorem C74_obstacle_refuted : exists c0 i j cs1 c1 cs2 c2, spnav_controller false 1 None ok_env 1 true 50 10 false no_centroid c0 /\
  u_reading i = [0; 0; 0; 0; 0; 0; 1; 0] /\ u_reading j = [0; 0; 0; 0; 0; 0; 0; 0] /\
  update c0 i = Some (cs1, c1) /\ acts cs1 = [VOCAB_CC_ACTUATOR_CLOSE_GRIPPER] /\ update c1 j = Some (cs2, c2) /\ acts cs2 = [] /\
  forall k, exists cs, updates c1 (repeat j k) = Some (cs, if k then c1 else c2) /\ acts cs = [].
Proof. exact gripping_lemma. Qed.
Print Assumptions C74_obstacle_refuted.

(** C75 (SpaceNavigator): a near obstacle halves the velocity *)
Theorem C75_half_partial : forall gain names n scaling prox high low nolow k c0 is cs c i j cs1 c1 cs2 c2 v w,
  scaling <> 0 -> spnav_controller false gain names n scaling prox high low nolow k c0 -> updates c0 is = Some (cs, c) ->
  acquired (u_reading i) -> u_reading j = u_reading i -> prox = true -> nolow = false ->
  ~ near low (u_prox i) -> ~ near high (u_prox i) -> near low (u_prox j) -> ~ near high (u_prox j) ->
  update c i = Some (cs1, c1) -> acts cs1 = [] -> twists cs1 = [v] -> nonzero v ->
  update c j = Some (cs2, c2) -> acts cs2 = [] -> twists cs2 = [w] ->
  forall a, nth a w 0 = nth a v 0 / 2.
Proof. exact half_lemma. Qed.
Print Assumptions C75_half_partial.
Example C75_nonvacuous : near 10 (Some [20]) /\ ~ near 50 (Some [20]) /\ ~ near 10 None /\
  exists v c w c', update (sp_twist0 None) (read_at 1 push_x None) = Some ([STwist v], c) /\ nonzero v /\
                   update (sp_twist0 None) (read_at 1 push_x (Some [20])) = Some ([STwist w], c').
Proof.
  split; [apply near_one; lra|]. split; [rewrite near_one by lra; lra|]. split; [apply near_none|].
  destruct first_push as (v & c & U & NZ & _). exists v, c.
  eexists; eexists. split; [exact U|]. split; [exact NZ|].
  unfold update, sp_twist0, configured_sdc, read_at, push_x. cbn. unfold proximity, alert_level. cbn. decide_r. cbn.
  unfold base_transform. cbn. decide_r. cbn. decide_r. cbn. reflexivity.
Qed.

(** C75 is false of the Wiimote: the linear velocity is the same *)
Theorem C75_wiimote_refuted : exists ics d i j cs1 c1 cs2 c2 v w, wii_initialize false 1 (configureFixedAxes None) ok_env = (ics, Some d) /\
  u_prox i = None /\ near 10 (u_prox j) /\ ~ near 50 (u_prox j) /\ u_reading i = u_reading j /\
  update (configured_sdc (DWii d) 1 true 50 10 false false no_centroid) i = Some (cs1, c1) /\ twists cs1 = [v] /\
  update (configured_sdc (DWii d) 1 true 50 10 false false no_centroid) j = Some (cs2, c2) /\ twists cs2 = [w] /\ lin v = lin w /\ nonzero (lin_list v).
Proof. exact wii_alert_lemma. Qed.
Print Assumptions C75_wiimote_refuted.

(** C75 is false of the Leap Motion sensor: an obstacle that comes near moves the robot although the hand is still *)
Theorem C75_leap_refuted : exists c0 i j cs1 c1 cs2 c2 v, leap_controller false leap_names mid [1; 0; 0; 0; 0; 0] leap_first 1 true 50 10 false no_centroid c0 /\
  u_reading i = u_reading j /\ u_prox i = None /\ near 10 (u_prox j) /\ ~ near 50 (u_prox j) /\
  update c0 i = Some (cs1, c1) /\ update c1 j = Some (cs2, c2) /\ twists cs2 = [v] /\ nonzero v.
Proof. exact leap_alert_lemma. Qed.
Print Assumptions C75_leap_refuted.

(** C76: while a centroid is in force the robot moves along the optical axis and turns it towards the centroid *)
Theorem C76_centroid : forall gain names n ics d scaling prox high low nolow k is cs c i cs' c' f v cx cy x,
  spnav_initialize false gain (configureFixedAxes names) n = (ics, Some d) -> scaling <> 0 -> rotation_matrix (ct_rot k) ->
  updates (configured_sdc (DSpnav d) scaling prox high low nolow true k) is = Some (cs, c) -> update c i = Some (cs', c') ->
  acquired (u_reading i) -> ~ (prox = true /\ near high (u_prox i)) -> acts cs' = [] ->
  slowdown prox nolow low (u_prox i) f -> scaled names (scaling * f) (u_reading i) v ->
  in_force prox high k is i (cx, cy) -> u_stat i = Some x ->
  let m := mm (fM (vectorToFrame x)) (ct_rot k) in
  (0 < dot (lin v) (mv m (V 0 0 1)) -> clear_centroid cx cy -> exists w, twists cs' = [w] /\ steered m cx cy v w) /\
  (dot (lin v) (mv m (V 0 0 1)) <= 0 -> pushed names (u_reading i) -> twists cs' = [v]).
Proof. exact centroid_lemma. Qed.
Print Assumptions C76_centroid.
(** the witness of C55_centroid_refuted is a case of it; another: a centroid remembered within its permanence time *)
Example C76_nonvacuous : clear_centroid 0 (-1) /\
  in_force false 50 (Centroid mid 1 (0, 0) 0) [UIn 1 push_x None (Some [0; -1]) 1 None] (UIn 2 push_x None None 2 None) (0, -1).
Proof.
  split; [exact clear_one|]. right. split; [reflexivity|]. exists 1. split; [|cbn; lra].
  apply (seen_now false 50 (Centroid mid 1 (0, 0) 0) [] (UIn 1 push_x None (Some [0; -1]) 1 None)); [|reflexivity].
  split; [left; reflexivity|]. intros [Z _]. discriminate.
Qed.

(** C77: pose mode of the SpaceNavigator, after any history *)
Theorem C77_pose : forall gain names n scaling prox high low nolow k c0 is,
  scaling <> 0 -> spnav_controller true gain names n scaling prox high low nolow k c0 -> (forall x, n_stat n = Some x -> length x = 6%nat) ->
  exists cs c, updates c0 is = Some (cs, c) /\ twists cs = [] /\
  forall i, exists cs' c', update c i = Some (cs', c') /\
    (~ acquired (u_reading i) -> cs' = []) /\
    (acquired (u_reading i) ->
     let go := ~ (prox = true /\ near high (u_prox i)) /\ pushed names (u_reading i) in
     let x := last (poses cs) (match n_stat n with Some x => x | None => zeros6 end) in
     (go -> exists f y, slowdown prox nolow low (u_prox i) f /\ advanced names (gain / (scaling * f)) x (u_reading i) y /\ poses cs' = [y]) /\
     (~ go -> poses cs' = [])).
Proof. exact pose_lemma. Qed.
Print Assumptions C77_pose.
Example C77_nonvacuous : exists ics d, spnav_initialize true (/ 10) (configureFixedAxes (Some ["z"; "rotx"]%string)) ok_env = (ics, Some d) /\
  (forall x, n_stat ok_env = Some x -> length x = 6%nat).
Proof.
  unfold spnav_initialize. replace (Rleb (/ 10) 0) with false by (symmetry; apply Rleb_false; lra).
  eexists; eexists. split; [reflexivity|]. intros x E. apply some_inj in E. subst x. reflexivity.
Qed.

(** C78 (SpaceNavigator, twist mode): a cycle that sees an obstacle leaves the robot at rest and sends nothing but the stop *)
Theorem C78_obstacle_partial : forall gain names n scaling prox high low nolow k c0 is cs c i cs' c',
  scaling <> 0 -> spnav_controller false gain names n scaling prox high low nolow k c0 -> updates c0 is = Some (cs, c) ->
  acquired (u_reading i) -> prox = true -> near high (u_prox i) -> update c i = Some (cs', c') -> ~ moving (cs ++ cs') /\ Forall (eq (STwist zeros6)) cs'.
Proof. exact obstacle_lemma. Qed.
Print Assumptions C78_obstacle_partial.

(** C78 is false: the robot moves again in the next cycle if the sensors have not published anything new. (Its first cycle
    is a case of the theorem above.) *)
Theorem C78_forgotten_refuted : exists c0 i j cs1 c1 cs2 c2, spnav_controller false 1 None ok_env 1 true 50 10 false no_centroid c0 /\
  near 50 (u_prox i) /\ u_prox j = None /\ update c0 i = Some (cs1, c1) /\ update c1 j = Some (cs2, c2) /\ moving (cs1 ++ cs2).
Proof. exact forgotten_lemma. Qed.
Print Assumptions C78_forgotten_refuted.

(** C78 is false of the Leap Motion sensor: an obstacle does not stop it *)
Theorem C78_leap_refuted : exists c0 is cs c i c', leap_controller false leap_names mid [1; 0; 0; 0; 0; 0] leap_first 1 true 50 10 false no_centroid c0 /\
  updates c0 is = Some (cs, c) /\ moving cs /\ acquired (u_reading i) /\ near 50 (u_prox i) /\ update c i = Some ([], c').
Proof. exact leap_obstacle_lemma. Qed.
Print Assumptions C78_leap_refuted.

(** C79: Leap Motion sensor, pose mode, after any history: the robot goes where the hand has gone *)
Theorem C79_pose : forall names e x0 first scaling prox high low nolow k c0 is cs c i, scaling <> 0 ->
  leap_controller true names e x0 first scaling prox high low nolow k c0 -> updates c0 is = Some (cs, c) ->
  acquired (u_reading i) -> ~ (prox = true /\ near high (u_prox i)) ->
  exists cs' c' f y, update c i = Some (cs', c') /\ slowdown prox nolow low (u_prox i) f /\ hand_pose names e x0 (scaling * f) first (u_reading i) y /\
    (acts cs' = [] -> nonzero y -> poses cs' = [y]).
Proof. exact leap_pose_lemma. Qed.
Print Assumptions C79_pose.

(** C79: in twist mode the velocity times the elapsed time is the displacement between two consecutive poses of the hand *)
Theorem C79_twist : forall names e x0 first scaling prox high low nolow k c0 is cs c i j cs1 c1 cs2 c2 f g y z, scaling <> 0 ->
  leap_controller false names e x0 first scaling prox high low nolow k c0 -> updates c0 is = Some (cs, c) ->
  update c i = Some (cs1, c1) -> update c1 j = Some (cs2, c2) ->
  acquired (u_reading i) -> ~ (prox = true /\ near high (u_prox i)) -> acts cs1 = [] ->
  acquired (u_reading j) -> ~ (prox = true /\ near high (u_prox j)) -> acts cs2 = [] ->
  slowdown prox nolow low (u_prox i) f -> slowdown prox nolow low (u_prox j) g ->
  hand_pose names e x0 (scaling * f) first (u_reading i) y -> hand_pose names e x0 (scaling * g) first (u_reading j) z ->
  nonzero (lin_list y) -> nonzero (lin_list z) -> u_time i <> 0 ->
  exists w, twists cs2 = [w] /\ vscale (u_time j - u_time i) (lin w) = vsub (lin z) (lin y).
Proof. exact leap_twist_lemma. Qed.
Print Assumptions C79_twist.
Example C79_nonvacuous : exists c0 c1 c, leap_controller false leap_names mid [1; 0; 0; 0; 0; 0] leap_first 1 true 50 10 false no_centroid c0 /\
  updates c0 [read_at 1 [0; 0; 0; 0; 0; 0] None] = Some ([], c1) /\
  updates c0 [read_at 1 [0; 0; 0; 0; 0; 0] None; read_at 2 [1000; 0; 0; 0; 0; 0] None] = Some ([STwist [1; 0; 0; 0; 0; 0]], c).
Proof. destruct leap_moves as (c1 & c & U1 & U & _). exists leap_sdc0, c1, c. split; [apply leap_sdc0_controller|]. split; assumption. Qed.
Example C79_pose_nonvacuous : exists c0, leap_controller true (Some ["y"%string]) (RotZ (PI / 2)) [1; 0; 0; 0; 0; 0] [0; 200; 0; 0; 0; 0] 2 true 50 10 false no_centroid c0.
Proof.
  eexists. exists (Some (RotZ (PI / 2))), ok_env. eexists; eexists. split; [reflexivity|]. split; [reflexivity|]. split; [reflexivity|].
  split; [rewrite RotZ_Rot2; apply Rot2_rot, unit_ez|]. split; reflexivity.
Qed.
