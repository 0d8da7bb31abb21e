(** The controller and the solver opened from a configuration file and a robot: a crank of one metre,
    half of it in its link and half of it after the last link. *)
From Coq Require Import Reals ZArith List Bool Lra Lia String.
From Verif Require Import Kdl KdlFacts KdlRot KdlRotFacts KinRepSpec Vocab Bcc BccSpec BccLineSpec BccCmdSpec BccFacts BccFacts2 BccExamples BccLineFacts2 BccLineExamples BccCmdExamples Sys SysSpec SysFacts SysExamples2.
From Verif Require Screw ScrewFacts Selector Builder BuilderExamples2 KinRep KdlSolver KdlSolverExamples KdlSolverFacts Tree Config ConfigSpec ConfigFacts.
Import ListNotations.
Open Scope R_scope.
Local Notation S := Datatypes.S.
Local Notation length := List.length.

Definition half_link : Config.link_groups := Config.Lg None (Some (Config.Xyz (1 / 2) 0 0 "RotZ")).
Definition rig_file : Config.chain_cfg :=
  Config.Ch (Some 1%Z) None (fun _ => half_link) (Some [1; 0; 0; 1 / 2; 0; 1; 0; 0; 0; 0; 1; 0; 0; 0; 0; 1]).
Definition rig_options : Config.solver_cfg := Config.Sc None None None None None None None.
Definition rig_robot (j : nat) : option (R * R * R * R) := match j with O => Some (-180, 180, -10, 10) | _ => None end.
Definition rig : cfg := Cfg 1 false false false [-180] [180] [-10] [10] [10].
Definition half_segment : segment := mk_segment (J JRotZ 1 0 vzero vzero) (ftrans (V (1 / 2) 0 0)).
Definition rig_chain : chain := [mk_segment Config.none_joint fid; half_segment; mk_segment Config.none_joint (at_x (1 / 2))].
Definition rig_solver : KdlSolver.solver := KdlSolver.Sv rig_chain rig_chain (KdlSolver.sv_ik KdlSolverExamples.crank_solver).

Lemma rig_chain_read : Config.cfg_chain rig_file = Some rig_chain.
Proof. reflexivity. Qed.
Lemma half_turn_deg : KinRep.degToRad 180 = PI /\ KinRep.degToRad (-180) = - PI.
Proof. unfold KinRep.degToRad. split; field. Qed.
Lemma rig_kdl : exists sel, Config.kdl_open rig_file (with_limits rig_options [-180] [180]) = Some (rig_chain, sel) /\ sel = Config.IkLeast ([- PI], [PI]).
Proof.
  unfold Config.kdl_open. rewrite rig_chain_read. cbn [Config.sc_ikVel Config.sc_ikPos Config.sc_ik Config.sc_strategy Config.sc_mins Config.sc_maxs with_limits rig_options Config.or_default].
  change (nr_of_joints rig_chain) with 1%nat. cbn [String.eqb Ascii.eqb Bool.eqb negb orb].
  assert (L : Config.retrieveJointLimits 1 (Some [-180]) (Some [180]) = Some ([- PI], [PI])).
  { unfold Config.retrieveJointLimits. cbn [length Nat.eqb andb negb Config.limits_ok map]. destruct half_turn_deg as (-> & ->). unfold Rltb. pose proof PI_RGT_0.
    destruct (Rlt_dec PI (- PI)) as [X|X]; [exfalso; lra|]. reflexivity. }
  rewrite L. eexists. split; reflexivity.
Qed.
Lemma half_pose : segment_pose half_segment 0 = at_x (1 / 2).
Proof.
  unfold half_segment. rewrite ConfigFacts.mk_segment_pose; unfold joint_pose; cbn [j_type j_scale j_offset]; replace (1 * 0 + 0) with 0 by ring; rewrite RotZ_Rot2, Rot2_zero; fold fid; [|reflexivity]. rewrite fmul_id_l. reflexivity.
Qed.
Lemma at_x_mul x y : fmul (at_x x) (at_x y) = at_x (x + y).
Proof. unfold fmul, at_x, fapp. cbn [fM fp]. rewrite mm_id_l, mv_id. f_equal. apply vec_eq; cbn; ring. Qed.
Lemma rig_formula : Screw.fromChain rig_chain = BuilderExamples2.crank.
Proof.
  unfold Screw.fromChain, rig_chain. cbn [fold_left]. unfold Screw.fromChain_step at 3. cbn [s_joint mk_segment Config.none_joint Config.axis_joint j_type Screw.jointTypeToMotionId].
  fold Config.none_joint. rewrite ConfigFacts.none_pose, fmul_id_l.
  unfold Screw.fromChain_step at 2. cbn [s_joint half_segment mk_segment j_type Screw.jointTypeToMotionId joint_axis j_origin]. cbn [Screw.exps].
  fold half_segment. rewrite KdlSolverExamples.crank_exp, fmul_id_l, half_pose.
  unfold Screw.fromChain_step. cbn [s_joint mk_segment Config.none_joint Config.axis_joint j_type Screw.jointTypeToMotionId].
  fold Config.none_joint. rewrite ConfigFacts.none_pose, at_x_mul. unfold BuilderExamples2.crank. cbn [Screw.exps]. f_equal. unfold at_x. replace (1 / 2 + 1 / 2) with 1 by field. reflexivity.
Qed.
Lemma rig_assembled : assembled (crank_dev 0) rig_robot rig_file rig_options rig idle rig_solver.
Proof.
  destruct rig_kdl as (ik & K & ->). exists (1 / 20), 10, 50%Z, 20%Z, false, false, BASE_FRAME, false, 1%nat, (Some [10]), rig_chain, (Config.IkLeast ([- PI], [PI])), KdlSolverExamples.crank_sel, [/ 2].
  split; [reflexivity|]. split; [exact K|]. split; [split; reflexivity|]. unfold KdlSolver.sv_open, KdlSolver.st_create. rewrite rig_formula. cbn [crank_dev dev_fuel]. rewrite BuilderExamples2.crank_built. reflexivity.
Qed.
Lemma rig_inverse d q0 : 0 < d -> exists s', KdlSolver.invKin Selector.find_least rig_solver (row d) [q0] KdlSolver.BASE_FRAME = Some (Some [KinRep.radToDeg 0], s').
Proof.
  intros D. destruct (KdlSolverExamples.crank_inverse d q0 D) as (s' & H). unfold KdlSolver.invKin in *. cbn [KdlSolver.sv_chain rig_solver KdlSolverExamples.crank_solver] in *. unfold KdlSolver.joints_in in *.
  change (nr_of_joints rig_chain) with 1%nat. change (nr_of_joints KdlSolverExamples.crank_chain) with 1%nat in H. cbn [length Nat.leb firstn map KdlSolver.sv_ik rig_solver] in *. fold (row d) in H.
  cbv iota beta zeta in *. destruct (KdlSolver.cart_to_jnt _ _ _ _) as [[[r q] k]|]; [|discriminate]. destruct (Z.ltb r 0) eqn:X; [discriminate|]. destruct q as [q|]; [|discriminate]. injection H as H _. rewrite H. eauto.
Qed.

(** *** A target accepted, and then a question *)
Local Arguments computeIsocronousSpeeds : simpl never.
Lemma rig_speeds z : z = 0 -> computeIsocronousSpeeds rig [10] [z] = Some ([10], true).
Proof.
  intros ->. unfold computeIsocronousSpeeds. cbn. assert (A : Rabs (0 - 10) = 10) by (rewrite Rabs_left; lra). rewrite A. repeat (cbn [fst snd]; real1).
  cbn [map]. replace (10 / (10 / 10)) with 10 by field. reflexivity.
Qed.
Definition going_home (z : R) : list entry := [(OMovj (row 1), accepted z, true)].
Example rig_moves : exists d s' v', assembled d rig_robot rig_file rig_options rig idle rig_solver /\ history rig idle (going_home (KinRep.radToDeg 0)) s' /\
  served d rig_solver (trace_of (going_home (KinRep.radToDeg 0))) v' /\ In (PositionMove [KinRep.radToDeg 0], yes) (trace_of (going_home (KinRep.radToDeg 0))).
Proof.
  destruct (rig_inverse 1 10 ltac:(lra)) as (v' & IV). set (z := KinRep.radToDeg 0) in *. assert (Z : z = 0) by (unfold z, KinRep.radToDeg; field; apply PI_neq0).
  exists (crank_dev 0). eexists. exists v'. split; [exact rig_assembled|]. split.
  { eapply hcons; [|constructor]. cbn [do_op]. cbn. do 2 eexists. split; [reflexivity|]. cbn. do 2 eexists. split; [reflexivity|]. cbn. rewrite (rig_speeds z Z). ex. }
  split.
  { unfold trace_of, going_home. cbn [map fst snd concat accepted app]. eapply through_cons; [reflexivity|]. eapply through_cons; [exists (Some [z]); split; [exact IV|split; reflexivity]|]. do 6 (eapply through_cons; [reflexivity|]). constructor. }
  cbn. tauto.
Qed.

Example rig_tells : assembled (crank_dev 0) rig_robot rig_file rig_options rig idle rig_solver /\
  Config.ch_numLinks rig_file = Some (Z.of_nat 1) /\ Forall ConfigSpec.rotary (map (Config.ch_link rig_file) (seq 0 1)) /\
  ConfigSpec.matrix_at (Config.ch_H0 rig_file) fid /\ ConfigSpec.matrix_at (Config.ch_HN rig_file) (at_x (1 / 2)) /\ rigid fid /\ rigid (at_x (1 / 2)) /\
  six_tools [] /\ history rig idle [] idle /\ served (crank_dev 0) rig_solver (trace_of []) rig_solver /\
  exec (stat rig true) idle ask_again (Done (Some (row 1, VOCAB_CC_NOT_CONTROLLING, 1))) idle /\ served (crank_dev 0) rig_solver ask_again rig_solver /\
  regular_log (fM (at_x 1)).
Proof.
  split; [exact rig_assembled|]. split; [reflexivity|]. split; [constructor; [|constructor]; right; exists (1 / 2), 0, 0, "RotZ"%string; split; [reflexivity|cbn; tauto]|].
  split; [constructor|]. split; [exact (ConfigSpec.row_by_row _ _ _ _ _ _ _ _ _ _ _ _ _ _ _ _)|]. split; [apply rigid_id|]. split; [apply rigid_id|].
  split; [constructor|]. split; [constructor|]. split; [constructor|]. split; [ex|]. split.
  { do 2 (eapply through_cons; [reflexivity|]). eapply through_cons; [|constructor]. split; [reflexivity|]. exists (row 1). split; [|split; reflexivity].
    unfold KdlSolver.fwdKin, KdlSolver.joints_in. cbn [KdlSolver.sv_chain rig_solver]. change (nr_of_joints rig_chain) with 1%nat. cbn [length Nat.leb firstn map].
    replace (KinRep.degToRad 0) with 0 by (unfold KinRep.degToRad; ring).
    unfold chain_fwd_kin, rig_chain. cbn [chain_fk]. change (is_fixed (s_joint half_segment)) with false. change (is_fixed (s_joint (mk_segment Config.none_joint fid))) with true.
    change (is_fixed (s_joint (mk_segment Config.none_joint (at_x (1 / 2))))) with true. cbv iota. rewrite !ConfigFacts.none_pose, !fmul_id_l, half_pose, at_x_mul. cbn [option_map]. f_equal. rewrite <- x_row. do 2 f_equal. field. }
  cbn [fM at_x]. right. repeat split.
Qed.
