(** C53, C54, C71, C72, C73: force/torque compensation (ftCompensation). *)
From Coq Require Import Reals Lra List Bool String ZArith Lia.
From Verif Require Import Kdl KdlFacts KdlRot KinRep Vocab Ft FtSpec FtFacts.
Import ListNotations.
Open Scope R_scope.
Local Notation S := Datatypes.S.
Local Notation length := List.length.

(** C53: with a tool, whatever the poses visited, the commands are the answers to the contact wrench alone *)
Theorem C53_tool : forall o e cs c s m com weight bias x0 is xs contacts,
  ft_configure o e = (cs, Done (c, s)) -> with_tool o com weight -> o_impedance o = false -> o_dry o = false ->
  0 <= forceDeadband (o_gains o) -> 0 <= torqueDeadband (o_gains o) ->
  mounted (o_sensor_rpy o) m ->
  e_measure e = Some (senses m (wadd bias (gravity (orientation x0) com weight))) -> e_stat_tool e = Some x0 ->
  Forall2 (fun i xc => feels m bias com weight i (fst xc) (snd xc)) is (combine xs contacts) -> length xs = length contacts ->
  exists ks, ft_life c s is = Some (ks ++ [FtStop]) /\ Forall2 (answers (f_twist c) (o_gains o)) contacts ks.
Proof. exact tool_life. Qed.
Print Assumptions C53_tool.

(** C53: an unloaded tool yields zero commands in every orientation *)
Theorem C53_unloaded : forall o e cs c s m com weight bias x0 is xs,
  ft_configure o e = (cs, Done (c, s)) -> with_tool o com weight -> o_impedance o = false -> o_dry o = false ->
  0 <= forceDeadband (o_gains o) -> 0 <= torqueDeadband (o_gains o) ->
  mounted (o_sensor_rpy o) m ->
  e_measure e = Some (senses m (wadd bias (gravity (orientation x0) com weight))) -> e_stat_tool e = Some x0 ->
  Forall2 (fun i x => i_measure i = Some (senses m (wadd bias (gravity (orientation x) com weight))) /\ i_stat_tool i = Some x) is xs ->
  exists ks, ft_life c s is = Some (ks ++ [FtStop]) /\ length ks = length is /\ Forall (fun k => k = sent (f_twist c) vzero vzero) ks.
Proof. exact unloaded_life. Qed.
Print Assumptions C53_unloaded.

(** C53: without a tool the command answers the measured wrench minus the one measured at start, in the TCP frame *)
Theorem C53_plain : forall c s i a b d e f g l,
  f_tool c = None -> f_imp c = false -> f_dry c = false ->
  0 <= forceDeadband (f_gains c) -> 0 <= torqueDeadband (f_gains c) ->
  i_measure i = Some (a :: b :: d :: e :: f :: g :: l) ->
  exists k, ft_run c s i = Done ([k], s) /\
    answers (f_twist c) (f_gains c) (Wr (vsub (mv (f_rot c) (V a b d)) (w_force (f_offset s))) (vsub (mv (f_rot c) (V e f g)) (w_torque (f_offset s)))) k.
Proof. exact run_plain. Qed.
Print Assumptions C53_plain.

(** C53: the commands are a continuous function of the contact (Lipschitz with the gains as constants) *)
Theorem C53_continuous : forall c s i1 i2 m bias com weight x1 x2 k1 k2,
  rotation_matrix m -> f_rot c = m -> f_tool c = Some (com, weight) -> f_imp c = false -> f_dry c = false ->
  0 <= forceDeadband (f_gains c) -> 0 <= torqueDeadband (f_gains c) -> f_offset s = bias ->
  feels m bias com weight i1 x1 k1 -> feels m bias com weight i2 x2 k2 ->
  exists f1 t1 f2 t2,
    ft_run c s i1 = Done ([sent (f_twist c) f1 t1], s) /\ ft_run c s i2 = Done ([sent (f_twist c) f2 t2], s) /\
    norm (vsub f1 f2) <= Rabs (linGain (f_gains c)) * norm (vsub (w_force k1) (w_force k2)) /\
    norm (vsub t1 t2) <= Rabs (rotGain (f_gains c)) * norm (vsub (w_torque k1) (w_torque k2)).
Proof. exact continuous_run. Qed.
Print Assumptions C53_continuous.

Definition ex_com := V 0 0 1.
Definition ex_weight := V 0 0 (-10).
Definition ex_x0 : list R := [0; 0; 0; 0; 0; 0].
Definition ex_x1 : list R := [1; 2; 3; 1; 0; 0].
Definition ex_bias := Wr (V 1 2 3) (V 4 5 6).
Definition ex_contact := Wr (V 3 0 0) (V 0 0 0).
Definition ex_opt := FtOpt "wrench" 1 false wgains false (Numbers [10; 20; 30]) (Numbers [0; 0; 1]) (Numbers [0; 0; -10]).
Definition ex_m := mm (RotZ (30 * (PI / 180))) (mm (RotY (20 * (PI / 180))) (RotX (10 * (PI / 180)))).
Definition ex_env := FtEnv true (fun k => Nat.eqb k 3) (Some (senses ex_m (wadd ex_bias (gravity (orientation ex_x0) ex_com ex_weight)))) true
                           (Some true) true true (Some ex_x0) None true.
Definition ex_in := FtIn (Some (senses ex_m (wadd (wadd ex_bias (gravity (orientation ex_x1) ex_com ex_weight)) ex_contact))) (Some ex_x1) None.

Example C53_hypotheses : exists cs c s,
  ft_configure ex_opt ex_env = (cs, Done (c, s)) /\ with_tool ex_opt ex_com ex_weight /\ mounted (o_sensor_rpy ex_opt) ex_m /\
  0 <= forceDeadband (o_gains ex_opt) /\ feels ex_m ex_bias ex_com ex_weight ex_in ex_x1 ex_contact /\
  answers (f_twist c) wgains ex_contact (FtWrench [1 * (3 - 1) / 3 * 3; 1 * (3 - 1) / 3 * 0; 1 * (3 - 1) / 3 * 0; 0; 0; 0]).
Proof.
  eexists. eexists. eexists. split; [reflexivity|]. split; [split; reflexivity|]. split; [reflexivity|]. split; [cbn; lra|].
  split; [split; reflexivity|].
  assert (N : norm (V 3 0 0) = 3).
  { unfold norm, dot. cbn. replace (3 * 3 + 0 * 0 + 0 * 0) with (3 * 3) by ring. apply sqrt_square. lra. }
  exists (vscale (1 * (3 - 1) / 3) (V 3 0 0)), vzero. split; [reflexivity|]. unfold shrunk. cbn [w_force w_torque ex_contact wgains forceDeadband torqueDeadband linGain rotGain].
  rewrite N. fold vzero. rewrite norm_vzero. split; split.
  - lra.
  - intros _. split; [reflexivity|]. rewrite norm_scale, N, !Rabs_right by lra. lra.
  - reflexivity.
  - lra.
Qed.

(** C54: the sensor wait lets a sensor that is never ready pass, and refuses one that is ready at the last check *)
Theorem C54_wait_refuted :
  (exists o e, otherwise_fine o e /\ (forall k, e_status e k = false) /\ starts (ft_configure o e)) /\
  (exists o e, otherwise_fine o e /\ e_status e 10 = true /\ ~ starts (ft_configure o e)).
Proof. exact wait_witness. Qed.
Print Assumptions C54_wait_refuted.

(** C54: what does hold: it starts exactly when one of the first ten checks is good or none of the eleven is *)
Theorem C54_wait_partial : forall o e, otherwise_fine o e ->
  (starts (ft_configure o e) <->
   (exists k, (k < 10)%nat /\ e_status e k = true) \/ (forall k, (k <= 10)%nat -> e_status e k = false)).
Proof. exact wait_characterised. Qed.
Print Assumptions C54_wait_partial.

Example C54_hypotheses : otherwise_fine (wopt "wrench" true) (wenv (fun k => Nat.eqb k 9) [1; 2; 3; 0; 0; 0]) /\
  starts (ft_configure (wopt "wrench" true) (wenv (fun k => Nat.eqb k 9) [1; 2; 3; 0; 0; 0])).
Proof.
  assert (F : otherwise_fine (wopt "wrench" true) (wenv (fun k => Nat.eqb k 9) [1; 2; 3; 0; 0; 0])) by (apply wfine; right; reflexivity).
  split; [exact F|]. apply C54_wait_partial; [exact F|]. left. exists 9%nat. split; [lia|reflexivity].
Qed.

(** C71: the spring may push the TCP away from its initial position *)
Theorem C71_spring_refuted : exists o e cs c s i x k s',
  ft_configure o e = (cs, Done (c, s)) /\ ft_run c s i = Done ([k], s') /\
  i_measure i = e_measure e /\ i_stat_imp i = Some x /\ 0 < linStiffness (o_gains o) /\ linDamping (o_gains o) = 0 /\
  0 < dot (base_force x k) (vsub (position x) (fp (f_initial s))).
Proof. exact impedance_witness. Qed.
Print Assumptions C71_spring_refuted.

(** C71: it is a spring and a damper when the TCP is aligned with the base *)
Theorem C71_spring_partial : forall c s i x,
  f_imp c = true -> f_dry c = false -> f_twist c = false -> f_tool c = None ->
  i_measure i = Some (senses (f_rot c) (f_offset s)) -> rotation_matrix (f_rot c) ->
  0 <= forceDeadband (f_gains c) -> 0 <= torqueDeadband (f_gains c) ->
  i_stat_imp i = Some x -> orientation x = mid ->
  exists k s', ft_run c s i = Done ([k], s') /\ f_previous s' = vectorToFrame x /\
    base_force x k = vneg (vadd (vscale (linStiffness (f_gains c)) (vsub (position x) (fp (f_initial s))))
                                (vscale (linDamping (f_gains c)) (vscale (/ f_period c) (vsub (position x) (fp (f_previous s)))))).
Proof. exact impedance_aligned. Qed.
Print Assumptions C71_spring_partial.

Example C71_hypotheses :
  let c := FtCfg false false wgains true (1 / 50) mid None in
  let s := FtSt (Wr (V 1 0 0) vzero) fid fid in
  i_measure (FtIn (Some (senses mid (f_offset s))) None (Some [1; 0; 0; 0; 0; 0])) = Some (senses (f_rot c) (f_offset s)) /\
  rotation_matrix (f_rot c) /\ orientation [1; 0; 0; 0; 0; 0] = mid.
Proof.
  cbv zeta. split; [reflexivity|]. split; [apply rot_id|]. unfold orientation. cbn [vectorToFrame fM].
  fold vzero. rewrite norm_vzero. apply Rot2_zero.
Qed.

(** C72: a failing sensor leaves the last motion command in force *)
Theorem C72_failure_refuted : exists o e cs c s i j v,
  ft_configure o e = (cs, Done (c, s)) /\ i_measure j = None /\ ft_life c s [i; j] = Some [FtTwist v] /\ Exists (fun x => x <> 0) v.
Proof. exact failing_witness. Qed.
Print Assumptions C72_failure_refuted.

(** C72: as long as the devices answer, the robot is stopped when the module is interrupted *)
Theorem C72_interrupted_partial : forall c is s,
  f_dry c = false -> 0 <= forceDeadband (f_gains c) -> 0 <= torqueDeadband (f_gains c) ->
  Forall (fun i => (exists l, i_measure i = Some l /\ (6 <= length l)%nat) /\ i_stat_tool i <> None /\ i_stat_imp i <> None) is ->
  exists ks, ft_life c s is = Some (ks ++ [FtStop]) /\ length ks = length is.
Proof. exact life_interrupted. Qed.
Print Assumptions C72_interrupted_partial.

Example C72_hypotheses :
  Forall (fun i => (exists l, i_measure i = Some l /\ (6 <= length l)%nat) /\ i_stat_tool i <> None /\ i_stat_imp i <> None)
    [FtIn (Some [1; 2; 3; 4; 5; 6]) (Some []) (Some []); FtIn (Some [1; 2; 3; 4; 5; 6; 7]) (Some []) (Some [])].
Proof.
  apply Forall_cons; [|apply Forall_cons; [|apply Forall_nil]]; (split; [eexists; split; [reflexivity|cbn; lia]|split; discriminate]).
Qed.

(** C73: a dry run sends nothing; otherwise the TCP frame is selected, and the streaming command preset when the
    controller has that parameter, before the first motion, and every motion is of the chosen kind *)
Theorem C73_mode : forall o e cs c s is ks,
  ft_configure o e = (cs, Done (c, s)) -> ft_life c s is = Some ks ->
  (o_dry o = true -> cs = [] /\ ks = []) /\
  (o_dry o = false ->
    (exists p, cs = p ++ [FtFrame TCP_FRAME] /\
       (e_params e = Some true -> p = [FtPreset (if String.eqb (o_mode o) "twist" then VOCAB_CC_TWIST else VOCAB_CC_WRENCH)]) /\
       (e_params e <> Some true -> p = [])) /\
    exists ms, (ks = ms \/ ks = ms ++ [FtStop]) /\ forallb (of_kind (String.eqb (o_mode o) "twist")) ms = true).
Proof. exact mode_life. Qed.
Print Assumptions C73_mode.

(** C73: configure itself never moves the robot *)
Theorem C73_configure : forall o e, forallb (fun k => negb (is_motion k)) (fst (ft_configure o e)) = true.
Proof. exact configure_no_motion. Qed.
Print Assumptions C73_configure.

Example C73_hypotheses : exists cs c s ks,
  ft_configure ex_opt ex_env = (cs, Done (c, s)) /\ ft_life c s [] = Some ks /\ cs = [FtPreset VOCAB_CC_WRENCH; FtFrame TCP_FRAME] /\ ks = [FtStop].
Proof. eexists. eexists. eexists. eexists. split; [reflexivity|]. split; [reflexivity|]. split; reflexivity. Qed.
