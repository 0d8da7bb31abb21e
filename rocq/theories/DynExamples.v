(** A bar of half a metre and two kilograms, hinged at its end, with half a metre more that weighs nothing; gravity along -y. *)
From Coq Require Import Reals ZArith List Bool Lra Lia String.
From Verif Require Import Kdl KdlFacts KdlRot KdlRotFacts Vocab Bcc BccSpec BccLineSpec BccCmdSpec BccFacts BccExamples BccLineExamples BccCmdExamples Sys SysSpec SysFacts SysExamples2 SysExamples3.
From Verif Require KinRep KdlSolver KdlSolverExamples Ft Tree SysFacts5 Selector BuilderExamples2.
From Verif Require Import Config ConfigSpec ConfigFacts TreeSpec Dyn AsibotSpec DynSpec DynFacts DynFacts2 DynFacts3 DynFacts4 DynFacts5 DynFacts6 DynFacts7 DynFacts8.
Import ListNotations.
Open Scope R_scope.
Local Notation length := List.length.
Local Notation S := Datatypes.S.

Definition bar_link : link_groups := Lg (Some (Dh 0 0 (1 / 2) 0)) None.
Definition bar_file : chain_cfg :=
  Ch (Some 1%Z) None (fun _ => bar_link) (Some [1; 0; 0; 1 / 2; 0; 1; 0; 0; 0; 0; 1; 0; 0; 0; 0; 1]).
Definition bar_mass : mass_group := Mg (Some 2) (Some [- (1 / 4); 0; 0]) (Some [1; 1; 1]).
(** the inertia has been left out *)
Definition bare_mass : mass_group := Mg (Some 2) (Some [- (1 / 4); 0; 0]) None.
Definition sideways : option (option (list R)) := Some (Some [0; - (10); 0]).
Definition no_vel (c : chain) (q : list R) (t : KdlRot.twist) : option (list R) := None.
Definition bar_kdl (m : mass_group) : Tree.chain_solvers := dyn_solvers no_vel (V 0 (- (10)) 0) (cfg_inertias bar_file (fun _ => m)).
Definition bar_dev (m : mass_group) : device := Dev Selector.find_least (bar_kdl m) 3.
Definition bar_body : body := Bd 2 (V (- (1 / 4)) 0 0) (V 1 1 1).

Lemma bar_frame : dh_frame (1 / 2) (KinRep.degToRad 0) 0 (KinRep.degToRad 0) = ftrans (V (1 / 2) 0 0).
Proof.
  assert (E : KinRep.degToRad 0 = 0) by (unfold KinRep.degToRad; ring). rewrite E. unfold dh_frame, ftrans. rewrite cos_0, sin_0. unfold mid. apply (f_equal2 F); [apply mat_eq | apply vec_eq]; cbn; ring.
Qed.
Lemma bar_chain_read : cfg_chain bar_file = Some rig_chain.
Proof.
  assert (E : link_segment bar_link = Some (Some (true, half_segment))).
  { unfold link_segment, bar_link. cbn [lg_dh dh_a dh_alpha dh_d dh_offset]. rewrite bar_frame. reflexivity. }
  unfold cfg_chain, ch_links. cbn [bar_file ch_numLinks ch_link ch_H0 ch_HN]. change (map (fun _ : nat => bar_link) (seq 0 (Z.to_nat 1))) with [bar_link]. cbn [link_segments]. rewrite E. reflexivity.
Qed.
Lemma bar_assembled m : assembled (bar_dev m) rig_robot bar_file rig_options rig idle rig_solver.
Proof.
  destruct rig_kdl as (ik & K & ->). exists (1 / 20), 10, 50%Z, 20%Z, false, false, BASE_FRAME, false, 1%nat, (Some [10]), rig_chain, (Config.IkLeast ([- PI], [PI])), KdlSolverExamples.crank_sel, [/ 2].
  split; [reflexivity|]. split; [unfold kdl_open in *; rewrite bar_chain_read; rewrite rig_chain_read in K; exact K|]. split; [split; reflexivity|]. unfold KdlSolver.sv_open, KdlSolver.st_create. rewrite rig_formula. cbn [bar_dev dev_fuel]. rewrite BuilderExamples2.crank_built. reflexivity.
Qed.
Lemma bar_inertias : cfg_inertias bar_file (fun _ => bar_mass) = map inertia_of [no_body; bar_body; no_body].
Proof. reflexivity. Qed.
Lemma bare_inertias : cfg_inertias bar_file (fun _ => bare_mass) = map inertia_of [no_body; no_body; no_body].
Proof. reflexivity. Qed.

(** the positions of the links *)
Lemma half_at x : segment_pose half_segment x = F (RotZ x) (V (cos x / 2) (sin x / 2) 0).
Proof.
  unfold half_segment. rewrite mk_segment_pose by (unfold joint_pose; cbn [j_type j_scale j_offset]; replace (1 * 0 + 0) with 0 by ring; rewrite RotZ_Rot2, Rot2_zero; reflexivity).
  unfold joint_pose. cbn [j_type j_scale j_offset]. replace (1 * x + 0) with x by ring. unfold fmul, ftrans, fapp. cbn [fM fp]. rewrite mm_id_r. f_equal. unfold RotZ. apply vec_eq; cbn; field.
Qed.
Lemma bar_solid : solid rig_chain.
Proof.
  assert (R : forall x, rigid (at_x x)) by (intro; apply rigid_id).
  apply (cfg_solid bar_file rig_chain fid (at_x (1 / 2)) bar_chain_read); [constructor | exact (row_by_row _ _ _ _ _ _ _ _ _ _ _ _ _ _ _ _) | apply rigid_id | apply R].
Qed.

(** one step of the solver for the dynamics *)
Lemma pass_fixed s i fe bs v a q qd qdd v' a' f ts : is_fixed (s_joint s) = true ->
  let X := segment_pose s 0 in let vj := Tree.trot (mT (fM X)) (segment_twist s 0 0) in let s1 := Tree.trot (mT (fM X)) (segment_twist s 0 1) in
  tadd (ftwist_inv X v) vj = v' -> tadd (tadd (ftwist_inv X a) (tscale 0 s1)) (tcross v' vj) = a' -> rne_pass v' a' bs q qd qdd = Some (f, ts) ->
  rne_pass v a ((s, i, fe) :: bs) q qd qdd = Some (fwrench X (wadd (Ft.wsub (wadd (rb_mul i a') (twcross v' (rb_mul i v'))) fe) f), ts).
Proof. intros F X vj s1 <- <- E. cbn [rne_pass]. rewrite F. fold X vj s1. rewrite E. reflexivity. Qed.
Lemma pass_moving s i fe bs v a x xd xdd q qd qdd v' a' f ts : is_fixed (s_joint s) = false ->
  let X := segment_pose s x in let vj := Tree.trot (mT (fM X)) (segment_twist s x xd) in let s1 := Tree.trot (mT (fM X)) (segment_twist s x 1) in
  tadd (ftwist_inv X v) vj = v' -> tadd (tadd (ftwist_inv X a) (tscale xdd s1)) (tcross v' vj) = a' -> rne_pass v' a' bs q qd qdd = Some (f, ts) ->
  let f' := wadd (Ft.wsub (wadd (rb_mul i a') (twcross v' (rb_mul i v'))) fe) f in
  rne_pass v a ((s, i, fe) :: bs) (x :: q) (xd :: qd) (xdd :: qdd) = Some (fwrench X f', tdot s1 f' :: ts).
Proof. intros F X vj s1 <- <- E f'. cbn [rne_pass]. rewrite F. fold X vj s1. rewrite E. reflexivity. Qed.
Lemma half_0 : segment_pose half_segment 0 = at_x (1 / 2).
Proof. exact half_pose. Qed.
Lemma half_twist xd : segment_twist half_segment 0 xd = Tw (V 0 (xd / 2) 0) (V 0 0 xd).
Proof.
  assert (P : joint_pose (s_joint half_segment) 0 = fid) by (unfold joint_pose; cbn [half_segment mk_segment s_joint j_type j_scale j_offset]; replace (1 * 0 + 0) with 0 by ring; rewrite RotZ_Rot2, Rot2_zero; reflexivity).
  assert (T : s_tip half_segment = ftrans (V (1 / 2) 0 0)) by (apply mk_tip; exact P).
  unfold segment_twist. rewrite P, T. unfold joint_twist. cbn [half_segment mk_segment s_joint j_type j_scale]. apply (f_equal2 Tw); apply vec_eq; cbn; field.
Qed.
Lemma fixed_twist f x xd : segment_twist (mk_segment none_joint f) x xd = twist_zero.
Proof. unfold segment_twist. cbn [joint_twist mk_segment s_joint none_joint axis_joint j_type]. unfold twist_zero, vzero. apply (f_equal2 Tw); cbn; [|reflexivity]. apply vec_eq; cbn; ring. Qed.
Local Ltac comps := unfold at_x, tadd, tscale, tcross, ftwist_inv, Tree.trot, twist_zero, fid; cbn [fM fp t_vel t_rot]; apply (f_equal2 Tw); apply vec_eq; cbn; field.
Lemma bar_rne m k a w : let i := inertia_of (Bd m (V (- (1 / 4)) 0 0) k) in
  rne (V 0 (- (10)) 0) [inertia_zero; i; inertia_zero] rig_chain [0] [0] [a] [wrench_zero; wrench_zero; w] = Some [(vz k + m / 16) * a + m * 10 / 4 - (vy (w_force w) / 2 + vz (w_torque w)) - vy (w_force w) / 2].
Proof.
  intro i. unfold rne. change (Nat.eqb _ _) with true. cbv iota. change (loaded _ _ _) with [(mk_segment none_joint fid, inertia_zero, wrench_zero); (half_segment, i, wrench_zero); (mk_segment none_joint (at_x (1 / 2)), inertia_zero, w)].
  erewrite pass_fixed with (v' := twist_zero) (a' := Tw (V 0 10 0) vzero); [| reflexivity | rewrite none_pose, fixed_twist; comps | rewrite none_pose, !fixed_twist; comps |].
  2: { eapply pass_moving with (v' := twist_zero) (a' := Tw (V 0 (10 + a / 2) 0) (V 0 0 a)); [reflexivity | rewrite half_0, half_twist; comps | rewrite half_0, !half_twist; comps |].
       eapply pass_fixed with (v' := twist_zero) (a' := Tw (V 0 (10 + a) 0) (V 0 0 a)); [reflexivity | rewrite none_pose, fixed_twist; comps | rewrite none_pose, !fixed_twist; comps |]. reflexivity. }
  cbn [option_map snd]. rewrite half_0, half_twist, none_pose.
  match goal with |- Some [?x] = Some [?y] => assert (E : x = y); [|rewrite E; reflexivity] end.
  cbv -[Rplus Rmult Rminus Ropp Rinv Rdiv IZR]. destruct w as [[f1 f2 f3] [t1 t2 t3]], k as [k1 k2 k3]. field.
Qed.

Lemma zero_in : KdlSolver.joints_in rig_chain [0] = Some [0].
Proof. unfold KdlSolver.joints_in. change (nr_of_joints rig_chain) with 1%nat. cbn [length Nat.leb firstn map]. f_equal. f_equal. unfold KinRep.degToRad. ring. Qed.
Lemma one_in : KdlSolver.joints_in rig_chain [180 / PI] = Some [1].
Proof. unfold KdlSolver.joints_in. change (nr_of_joints rig_chain) with 1%nat. cbn [length Nat.leb firstn map]. f_equal. f_equal. unfold KinRep.degToRad. field. apply PI_neq0. Qed.
Lemma bar_tip : chain_fwd_kin rig_chain [0] = Some (at_x 1).
Proof.
  unfold chain_fwd_kin, rig_chain. cbn [chain_fk]. change (is_fixed (s_joint half_segment)) with false. change (is_fixed (s_joint (mk_segment Config.none_joint fid))) with true.
  change (is_fixed (s_joint (mk_segment Config.none_joint (at_x (1 / 2))))) with true. cbv iota. rewrite !ConfigFacts.none_pose, !fmul_id_l, half_pose, at_x_mul. do 2 f_equal. field.
Qed.
(** held: two kilograms at a quarter of a metre *)
Lemma bar_gravity : Tree.gravityDyn (bar_kdl bar_mass) rig_solver [0] = Tree.TTrue [5].
Proof.
  unfold Tree.gravityDyn, bar_kdl. cbn [KdlSolver.sv_chain rig_solver]. rewrite zero_in. cbn zeta. cbn [dyn_solvers Tree.c_dyn]. change (repeat wrench_zero (length rig_chain)) with [wrench_zero; wrench_zero; wrench_zero]. change (repeat 0 (nr_of_joints rig_chain)) with [0].
  change (cfg_inertias bar_file (fun _ => bar_mass)) with [inertia_zero; inertia_of bar_body; inertia_zero]. unfold bar_body. rewrite bar_rne. cbn [wrench_zero w_force w_torque vzero vx vy vz]. do 2 f_equal. field.
Qed.
Lemma bare_gravity : Tree.gravityDyn (bar_kdl bare_mass) rig_solver [0] = Tree.TTrue [0].
Proof.
  unfold Tree.gravityDyn, bar_kdl. cbn [KdlSolver.sv_chain rig_solver]. rewrite zero_in. cbn zeta. cbn [dyn_solvers Tree.c_dyn]. change (repeat wrench_zero (length rig_chain)) with [wrench_zero; wrench_zero; wrench_zero]. change (repeat 0 (nr_of_joints rig_chain)) with [0].
  change (cfg_inertias bar_file (fun _ => bare_mass)) with [inertia_zero; inertia_zero; inertia_zero].
  assert (Z : inertia_of (Bd 0 (V (- (1 / 4)) 0 0) vzero) = inertia_zero).
  { unfold inertia_of, inertia_zero, mk_inertia. cbn [b_mass b_cog b_inertia]. assert (E1 : vscale 0 (V (- (1 / 4)) 0 0) = vscale 0 vzero) by (apply vec_eq; cbn; ring). rewrite E1. apply (f_equal3 Rb); [reflexivity | reflexivity | apply mat_eq; cbn; field]. }
  rewrite <- Z at 2. rewrite bar_rne. cbn [wrench_zero w_force w_torque vzero vx vy vz]. do 2 f_equal. field.
Qed.
(** seven newtons down at the tip; and, besides, one radian per second squared *)
Lemma bar_force a a' f1 f2 f3 t1 t2 t3 : KdlSolver.joints_in rig_chain [a] = Some [a'] ->
  Tree.invDyn (bar_kdl bar_mass) rig_solver [0] [0] [a] [f1; f2; f3; t1; t2; t3] KdlSolver.BASE_FRAME = Tree.TTrue [9 / 8 * a' + 5 - f2 - t3].
Proof.
  intros J. unfold Tree.invDyn, bar_kdl. cbn [KdlSolver.sv_chain rig_solver]. rewrite zero_in, J. cbn zeta. rewrite bar_tip. cbn [option_map KinRep.vectorToWrench at_x fM]. unfold Ft.wrot. cbn [w_force w_torque].
  change (length rig_chain) with 3%nat. cbv iota. cbn [repeat app dyn_solvers Tree.c_dyn]. change (cfg_inertias bar_file (fun _ => bar_mass)) with [inertia_zero; inertia_of bar_body; inertia_zero]. unfold bar_body. rewrite bar_rne.
  cbn [w_force w_torque]. do 2 f_equal. cbn. field.
Qed.

(** ** The controller *)
Definition bar_float (tau : R) : list event :=
  [(GetEncoders, give [0]); (GetEncoderSpeeds, give [0]); (GetEncoderAccelerations, give [0]); (GetControlModes, mode 1 VOCAB_CM_TORQUE);
   (InvDyn [0], give [tau]); (SetRefTorques [tau], yes)].
Lemma bar_gcmp : exec (gcmp rig) idle torque_modes (Done true) floating.
Proof. ex. Qed.
Lemma bar_cycle tau : exec (run rig) floating (bar_float tau) (Done tt) floating.
Proof. ex. Qed.
Lemma bar_history tau : history rig floating [(OCycle, bar_float tau, true)] floating.
Proof. eapply hcycle; [apply bar_cycle|constructor]. Qed.
Lemma modes_served m : served (bar_dev m) rig_solver torque_modes rig_solver.
Proof. do 3 (eapply through_cons; [reflexivity|]). constructor. Qed.
Lemma float_served m tau : Tree.gravityDyn (bar_kdl m) rig_solver [0] = Tree.TTrue [tau] -> served (bar_dev m) rig_solver (trace_of [(OCycle, bar_float tau, true)]) rig_solver.
Proof.
  intros G. unfold trace_of. cbn [map fst snd concat app bar_float]. do 4 (eapply through_cons; [reflexivity|]). eapply through_cons; [|eapply through_cons; [reflexivity|constructor]].
  split; [reflexivity|]. cbn [bar_dev dev_kdl]. rewrite G. split; reflexivity.
Qed.
Example bar_held : assembled (bar_dev bar_mass) rig_robot bar_file rig_options rig idle rig_solver /\
  dyn_open no_vel bar_file (fun _ => bar_mass) sideways = Some (dev_kdl (bar_dev bar_mass)) /\ gravity_at sideways (V 0 (- (10)) 0) /\
  ch_numLinks bar_file = Some (Z.of_nat 1) /\ Forall rotary (map (ch_link bar_file) (seq 0 1)) /\
  matrix_at (ch_H0 bar_file) fid /\ matrix_at (ch_HN bar_file) (at_x (1 / 2)) /\ rigid fid /\ rigid (at_x (1 / 2)) /\
  Forall weighed (map (fun i => (ch_link bar_file i, bar_mass)) (seq 0 1)) /\
  history rig idle [] idle /\ served (bar_dev bar_mass) rig_solver (trace_of []) rig_solver /\
  exec (gcmp rig) idle torque_modes (Done true) floating /\ served (bar_dev bar_mass) rig_solver torque_modes rig_solver /\
  history rig floating [(OCycle, bar_float 5, true)] floating /\ Forall (fun e => lets_go_on (fst (fst e))) [(OCycle, bar_float 5, true)] /\
  served (bar_dev bar_mass) rig_solver (trace_of [(OCycle, bar_float 5, true)]) rig_solver /\ In (SetRefTorques [5], yes) (bar_float 5).
Proof.
  split; [apply bar_assembled|]. split; [reflexivity|]. split; [constructor|]. split; [reflexivity|]. split; [constructor; [left; discriminate|constructor]|].
  split; [constructor|]. split; [exact (row_by_row _ _ _ _ _ _ _ _ _ _ _ _ _ _ _ _)|]. split; [apply rigid_id|]. split; [apply rigid_id|].
  split; [constructor; [|constructor]; right; split; [discriminate|]; split; [do 3 eexists; reflexivity | discriminate]|].
  split; [constructor|]. split; [constructor|]. split; [exact bar_gcmp|]. split; [apply modes_served|]. split; [apply bar_history|]. split; [constructor; [exact I|constructor]|].
  split; [apply float_served; exact bar_gravity|]. cbn. tauto.
Qed.

(** ** A link that weighs and is not held *)
Lemma bar_link_at x : link_at bar_link x (F (RotZ x) (V (cos x / 2) (sin x / 2) 0)).
Proof.
  rewrite <- half_at. assert (D : described bar_link) by (left; discriminate). destruct (link_segment_spec bar_link D) as (b & s & E & _ & P).
  assert (X : link_segment bar_link = Some (Some (true, half_segment))) by (unfold link_segment, bar_link; cbn [lg_dh dh_a dh_alpha dh_d dh_offset]; rewrite bar_frame; reflexivity).
  rewrite X in E. injection E as _ <-. apply P.
Qed.
Lemma bar_energy m x e : mg_mass m = Some 2 -> mg_cog m = Some [- (1 / 4); 0; 0] -> energy_at (V 0 (- (10)) 0) fid [(bar_link, m)] [x] e -> e = 5 * sin x.
Proof.
  intros M1 M2 H. inversion H as [|? ? ? ? ? ? h e' L R]; subst. inversion R; subst. pose proof (link_at_fun _ _ _ L _ (bar_link_at x)) as ->.
  unfold weight. rewrite M1, M2, fmul_id_l. cbv -[Rplus Rmult Rminus Ropp Rinv Rdiv IZR sin cos]. field.
Qed.
Lemma bare_falls : ~ holds (V 0 (- (10)) 0) fid [(bar_link, bare_mass)] [0] [0].
Proof.
  intros (_ & H). destruct (H [1] eq_refl) as (e & E & D). unfold power in D. cbn in D.
  assert (X : forall t, e t = 5 * sin t). { intro t. specialize (E t). cbn [map moving combine fst snd] in E. apply bar_energy in E; try reflexivity. rewrite E. do 2 f_equal. field. }
  assert (D2 : derivable_pt_lim e 0 (5 * cos 0)).
  { apply derivable_pt_lim_ext with (f := fun t => 5 * sin t); [intro z; rewrite X; reflexivity|]. apply (derivable_pt_lim_scal sin 5 0 (cos 0)). apply derivable_pt_lim_sin. }
  pose proof (uniqueness_limite _ _ _ _ D D2) as U. rewrite cos_0 in U. lra.
Qed.
Theorem weight_refuted : exists d robot cc sc c s v vel gv g ms n H0 HN tr s2 v2 h s3 v3 q tau,
  assembled d robot cc sc c s v /\ dyn_open vel cc ms gv = Some (dev_kdl d) /\ gravity_at gv g /\
  ch_numLinks cc = Some (Z.of_nat n) /\ Forall rotary (map (ch_link cc) (seq 0 n)) /\
  matrix_at (ch_H0 cc) H0 /\ matrix_at (ch_HN cc) HN /\ rigid H0 /\ rigid HN /\
  let links := map (fun i => (ch_link cc i, ms i)) (seq 0 n) in
  Forall (fun l => lg_dh (fst l) <> None /\ exists k x y z, mg_mass (snd l) = Some k /\ mg_cog (snd l) = Some [x; y; z]) links /\
  exec (gcmp c) s tr (Done true) s2 /\ served d v tr v2 /\
  history c s2 h s3 /\ Forall (fun e => lets_go_on (fst (fst e))) h /\ served d v2 (trace_of h) v3 /\
  (exists t, In (OCycle, t, true) h /\ In (SetRefTorques tau, yes) t /\ joints_read n t q) /\ ~ holds g H0 links q tau.
Proof.
  exists (bar_dev bare_mass), rig_robot, bar_file, rig_options, rig, idle, rig_solver, no_vel, sideways, (V 0 (- (10)) 0), (fun _ => bare_mass), 1%nat, fid, (at_x (1 / 2)), torque_modes, floating, rig_solver, [(OCycle, bar_float 0, true)], floating, rig_solver, [0], [0].
  destruct bar_held as (_ & _ & B3 & B4 & B5 & B6 & B7 & B8 & B9 & _).
  split; [apply bar_assembled|]. split; [reflexivity|]. do 7 (split; [assumption|]). intros links.
  split; [constructor; [|constructor]; split; [discriminate|]; do 4 eexists; split; reflexivity|].
  split; [exact bar_gcmp|]. split; [apply modes_served|]. split; [apply bar_history|]. split; [constructor; [exact I|constructor]|].
  split; [apply float_served; exact bare_gravity|]. split; [|exact bare_falls].
  exists (bar_float 0). split; [left; reflexivity|]. split; [cbn; tauto|]. apply read_one. cbn. tauto.
Qed.

(** ** A force exerted while moving *)
Definition lift7 : list R := [0; 7; 0; 0; 0; 0].
Definition lifting : st := setCurrentState VOCAB_CC_FORC_CONTROLLING (set_fd (map Ropp lift7) idle).
Definition bar_push (tau : R) : list event :=
  [(GetEncoders, give [0]); (GetEncoderSpeeds, give [0]); (GetEncoderAccelerations, give [180 / PI]); (GetControlModes, mode 1 VOCAB_CM_TORQUE);
   (InvDynForce [0] [0] [180 / PI] (map Ropp lift7) BASE_FRAME, give [tau]); (SetRefTorques [tau], yes)].
Lemma bar_forc : exec (forc rig lift7) idle torque_modes (Done true) lifting.
Proof. ex. Qed.
Lemma push_cycle tau : exec (run rig) lifting (bar_push tau) (Done tt) lifting.
Proof. ex. Qed.
Definition torque : R := 9 / 8 * 1 + 5 - - (7) - - 0.
Lemma push_served : served (bar_dev bar_mass) rig_solver (trace_of [(OCycle, bar_push torque, true)]) rig_solver.
Proof.
  unfold trace_of. cbn [map fst snd concat app bar_push]. do 4 (eapply through_cons; [reflexivity|]). eapply through_cons; [|eapply through_cons; [reflexivity|constructor]].
  split; [reflexivity|]. cbn [bar_dev dev_kdl]. change (frame_named BASE_FRAME) with KdlSolver.BASE_FRAME. unfold lift7. cbn [map]. rewrite (bar_force _ _ _ _ _ _ _ _ one_in). split; reflexivity.
Qed.
Lemma bar_passes : passes [fun s => s * s / 2] [fun s => s] 0 (map (fun x => x * PI / 180) [0]) (map (fun x => x * PI / 180) [0]) (map (fun x => x * PI / 180) [180 / PI]).
Proof.
  split; [|split; [|split]].
  - constructor; [|constructor]. intro s. replace s with (((1 * s + s * 1) * 2 - 0 * (s * s)) / Rsqr 2) at 2 by (unfold Rsqr; field).
    apply (derivable_pt_lim_div (fun s => s * s) (fun _ => 2)); [apply (derivable_pt_lim_mult id id); apply derivable_pt_lim_id | apply derivable_pt_lim_const | lra].
  - cbn [map]. constructor; [|constructor]. replace (180 / PI * PI / 180) with 1 by (field; apply PI_neq0). apply derivable_pt_lim_id.
  - cbn. f_equal. field.
  - cbn. f_equal. field.
Qed.
Example bar_pushes : solid rig_chain /\ opened (bar_dev bar_mass) rig_chain [] rig_solver /\ numJoints rig = nr_of_joints rig_chain /\ dev_kdl (bar_dev bar_mass) = dyn_solvers no_vel (V 0 (- (10)) 0) (map (fun b => mk_inertia (b_mass b) (b_cog b) (b_inertia b)) [no_body; bar_body; no_body]) /\ history rig idle [] idle /\ served (bar_dev bar_mass) rig_solver (trace_of []) rig_solver /\ exec (forc rig [0; 7; 0; 0; 0; 0]) idle torque_modes (Done true) lifting /\ served (bar_dev bar_mass) rig_solver torque_modes rig_solver /\ history rig lifting [(OCycle, bar_push torque, true)] lifting /\ Forall (fun e => lets_go_on (fst (fst e)) /\ no_tool (fst (fst e))) [(OCycle, bar_push torque, true)] /\ served (bar_dev bar_mass) rig_solver (trace_of [(OCycle, bar_push torque, true)]) rig_solver /\ In (SetRefTorques [torque], yes) (bar_push torque) /\ passes [fun s => s * s / 2] [fun s => s] 0 (map (fun x => x * PI / 180) [0]) (map (fun x => x * PI / 180) [0]) (map (fun x => x * PI / 180) [180 / PI]).
Proof.
  destruct (SysFacts5.assembled_parts _ _ _ _ _ _ _ (bar_assembled bar_mass)) as (ch & CC & OP & _). rewrite bar_chain_read in CC. injection CC as <-.
  split; [exact bar_solid|]. split; [exact OP|]. split; [reflexivity|]. split; [reflexivity|]. split; [constructor|]. split; [constructor|]. split; [exact bar_forc|]. split; [apply modes_served|].
  split; [eapply hcycle; [apply push_cycle|constructor]|]. split; [constructor; [split; exact I|constructor]|]. split; [exact push_served|]. split; [cbn; tauto|exact bar_passes].
Qed.
(** joints that go through any positions with any velocities and accelerations *)
Lemma passes_some : forall q v w, length v = length q -> length w = length q -> exists js vs, passes js vs 0 q v w.
Proof.
  induction q as [|x q IH]; intros v w Lv Lw.
  - destruct v; [|discriminate]. destruct w; [|discriminate]. exists [], []. repeat split; constructor.
  - destruct v as [|y v]; [discriminate|]. destruct w as [|z w]; [discriminate|]. destruct (IH v w) as (js & vs & P1 & P2 & P3 & P4); [cbn in *; lia | cbn in *; lia|].
    exists ((fun t => x + (t * y + t * t * (z / 2))) :: js), ((fun t => y + t * z) :: vs). split; [|split; [|split]].
    + constructor; [|exact P1]. intro t. replace (y + t * z) with (0 + ((1 * y + t * 0) + ((1 * t + t * 1) * (z / 2) + t * t * 0))) by field.
      apply (derivable_pt_lim_plus (fun _ => x) (fun t => t * y + t * t * (z / 2))); [apply derivable_pt_lim_const|].
      apply (derivable_pt_lim_plus (fun t => t * y) (fun t => t * t * (z / 2))).
      * apply (derivable_pt_lim_mult id (fun _ => y)); [apply derivable_pt_lim_id | apply derivable_pt_lim_const].
      * apply (derivable_pt_lim_mult (fun t => t * t) (fun _ => z / 2)); [|apply derivable_pt_lim_const]. apply (derivable_pt_lim_mult id id); apply derivable_pt_lim_id.
    + constructor; [|exact P2]. assert (D : derivable_pt_lim (fun t => y + t * z) 0 (0 + (1 * z + id 0 * 0))).
      { apply (derivable_pt_lim_plus (fun _ => y) (fun t => t * z)); [apply derivable_pt_lim_const|]. apply (derivable_pt_lim_mult id (fun _ => z)); [apply derivable_pt_lim_id | apply derivable_pt_lim_const]. }
      unfold id in D. replace (0 + (1 * z + 0 * 0)) with z in D by ring. exact D.
    + cbn [map]. rewrite P3. f_equal. ring.
    + cbn [map]. rewrite P4. f_equal. ring.
Qed.
