(** The controller attached to the solver device of a crank: a tool, and a target out of reach. *)
From Coq Require Import Reals ZArith List Bool Lra Lia.
From Verif Require Import Kdl KdlFacts KdlRot KdlRotFacts KinRepSpec Vocab Bcc BccSpec BccLineSpec BccCmdSpec BccFacts BccFacts2 BccExamples BccLineFacts2 BccLineExamples BccCmdExamples Sys SysSpec SysFacts.
From Verif Require Screw ScrewFacts Subproblems Selector Builder BuilderExamples2 BuilderFacts3 KinRep KdlSolver KdlSolverExamples KdlSolverFacts Tree.
Import ListNotations.
Open Scope R_scope.
Local Notation S := Datatypes.S.
Local Notation length := List.length.
Local Notation crank_chain := KdlSolverExamples.crank_chain.
Local Notation crank_solver := KdlSolverExamples.crank_solver.
Local Notation back := KdlSolverExamples.back.

Definition no_kdl : Tree.chain_solvers := Tree.Cks (fun _ _ _ => None) (fun _ _ _ _ _ => None).
Definition crank_dev (n : nat) : device := Dev Selector.find_least no_kdl (S (S (S n))).
Lemma crank_opened n : opened (crank_dev n) crank_chain [] crank_solver.
Proof. exists [/ 2], KdlSolverExamples.crank_sel, crank_solver. split; [apply KdlSolverExamples.crank_opens|constructor]. Qed.
Lemma crank_ok : rigid_links crank_chain.
Proof.
  apply ok_rigid_links. apply Forall_cons; [|apply Forall_nil]. unfold Screw.segment_ok, mk_segment. cbn [s_joint s_tip j_type j_axis j_origin j_scale j_offset].
  assert (P : joint_pose (J JRotZ 1 0 vzero vzero) 0 = fid).
  { unfold joint_pose. cbn [j_type j_scale j_offset]. replace (1 * 0 + 0) with 0 by ring. rewrite RotZ_Rot2, Rot2_zero. reflexivity. }
  rewrite P. split; [apply rigid_mul; [apply rigid_inv, rigid_id|apply rigid_trans]|]. split; [intros [X|X]; discriminate|auto].
Qed.

(** *** A tool that reaches back to the axis of the crank *)
Definition set_back : list event := [(RestoreOriginalChain, yes); (AppendLink back, yes)].
Definition ask_where : list event := [(GetEncoders, give [0]); (Now, number 1); (FwdKin [0], give (row 0))].
Lemma back_pose : pose_at back 0 = at_x (-1).
Proof. exact (pose_row (-1)). Qed.
Example stat_crank : exists d v1, rigid_links crank_chain /\ opened d crank_chain [] crank_solver /\ numJoints one = nr_of_joints crank_chain /\
  six_tools [(OTool back, set_back, true)] /\ history one idle [(OTool back, set_back, true)] idle /\ served d crank_solver (trace_of [(OTool back, set_back, true)]) v1 /\
  exec (stat one true) idle ask_where (Done (Some (row 0, VOCAB_CC_NOT_CONTROLLING, 1))) idle /\ served d v1 ask_where v1 /\
  tool_in_use fid [(OTool back, set_back, true)] = at_x (-1) /\ stands_bare crank_solver [0] (at_x 1).
Proof.
  destruct BuilderFacts3.spindle_null_from as (n & NULL).
  assert (R : exists s, KdlSolver.restoreOriginalChain (S (S (S n))) [/ 2] crank_solver = Builder.Returns s /\ KdlSolver.sv_chain s = crank_chain /\ KdlSolver.sv_original s = crank_chain).
  { unfold KdlSolver.restoreOriginalChain, KdlSolver.st_update. cbn [KdlSolver.sv_original crank_solver]. rewrite KdlSolverExamples.crank_formula, BuilderExamples2.crank_built. eexists. split; [reflexivity|split; reflexivity]. }
  destruct R as (s & R & C1 & C2).
  assert (A : exists s', KdlSolver.appendLink (S (S (S n))) [/ 2; / 2] back s = Builder.Returns s' /\ KdlSolver.sv_chain s' = crank_chain ++ [KdlSolverFacts.tool_segment back]).
  { unfold KdlSolver.appendLink, KdlSolver.st_update. fold (KdlSolverFacts.tool_segment back). rewrite C1. rewrite KdlSolverExamples.spindle_formula, (NULL (S (S (S n)))) by lia. eexists. split; reflexivity. }
  destruct A as (s' & A & C3). exists (crank_dev n), s'.
  split; [exact crank_ok|]. split; [apply crank_opened|]. split; [reflexivity|]. split; [repeat constructor|].
  split; [eapply hcons; [cbn [do_op]; ex|constructor]|]. split.
  { unfold trace_of. cbn [map fst snd concat]. rewrite app_nil_r. eapply through_cons; [split; [reflexivity|]; exists [/ 2]; exact R|].
    eapply through_cons; [split; [reflexivity|]; exists [/ 2; / 2]; exact A|]. constructor. }
  split; [ex|]. split.
  { eapply through_cons; [reflexivity|]. eapply through_cons; [reflexivity|]. eapply through_cons; [|constructor]. split; [reflexivity|]. exists (row 0). split; [|split; reflexivity].
    unfold KdlSolver.fwdKin, KdlSolver.joints_in. rewrite C3. change (nr_of_joints (crank_chain ++ [KdlSolverFacts.tool_segment back])) with 1%nat. cbn [length Nat.leb firstn map].
    replace (KinRep.degToRad 0) with 0 by (unfold KinRep.degToRad; ring).
    unfold chain_fwd_kin, crank_chain, KdlSolverExamples.crank_chain. cbn [app chain_fk]. change (is_fixed (s_joint (mk_segment (J JRotZ 1 0 vzero vzero) (ftrans (V 1 0 0))))) with false.
    change (is_fixed (s_joint (KdlSolverFacts.tool_segment back))) with true. cbv iota. rewrite KdlSolverExamples.seg_pose0, fmul_id_l, KdlSolverFacts.tool_segment_pose, KdlSolverExamples.back_frame.
    cbn [option_map]. f_equal. rewrite <- x_row. f_equal. unfold fmul, at_x, fapp. cbn [fM fp]. rewrite mm_id_l, mv_id. f_equal. apply vec_eq; cbn; ring. }
  split; [exact back_pose|]. unfold stands_bare. cbn [map]. replace (KinRep.degToRad 0) with 0 by (unfold KinRep.degToRad; ring). exact KdlSolverExamples.crank_at_zero.
Qed.

(** *** A target five metres away for a crank of one metre *)
Local Arguments computeIsocronousSpeeds : simpl never.
Lemma speeds_back z : z = 0 -> computeIsocronousSpeeds one [10] [z] = Some ([10], true).
Proof.
  intros ->. unfold computeIsocronousSpeeds. cbn. assert (A : Rabs (0 - 10) = 10) by (rewrite Rabs_left; lra). rewrite A. repeat (cbn [fst snd]; real1).
  cbn [map]. replace (10 / (10 / 10)) with 10 by field. reflexivity.
Qed.
Lemma far_refuted : exists d v c y s tr s' v' q f, opened d crank_chain [] v /\ KdlSolverFacts.strategy (dev_find d) /\ numJoints c = nr_of_joints (KdlSolver.sv_chain v) /\ length y = 6%nat /\
  referenceFrame s = BASE_FRAME /\ exec (movj c y) s tr (Done true) s' /\ served d v tr v' /\ motions tr = [PositionMove q] /\ stands v q f /\ Subproblems.dist (fp f) (fp (pose_at y 0)) = 4.
Proof.
  destruct (KdlSolverExamples.crank_inverse 5 10 ltac:(lra)) as (s' & IV). set (z := KinRep.radToDeg 0) in *.
  assert (Z : z = 0) by (unfold z, KinRep.radToDeg; field; apply PI_neq0).
  exists (crank_dev 0), crank_solver, one, (row 5), idle, [(GetEncoders, give [10]); (InvKin (row 5) [10] BASE_FRAME, give [z]); (GetRefSpeeds, give [10]); (SetRefSpeeds [10], yes);
   (GetControlModes, mode 1 VOCAB_CM_POSITION); (Sleep (1 / 10), yes); (GetControlModes, mode 1 VOCAB_CM_POSITION); (PositionMove [z], yes)].
  eexists. exists s', [z], (at_x 1). split; [apply crank_opened|]. split; [left; reflexivity|]. split; [reflexivity|]. split; [reflexivity|]. split; [reflexivity|]. split.
  { cbn. do 2 eexists. split; [reflexivity|]. cbn. do 2 eexists. split; [reflexivity|]. cbn. rewrite (speeds_back z Z). ex. }
  split. { eapply through_cons; [reflexivity|]. eapply through_cons; [exists (Some [z]); split; [exact IV|split; reflexivity]|]. do 6 (eapply through_cons; [reflexivity|]). constructor. }
  split; [reflexivity|]. split.
  - unfold stands. cbn [map]. rewrite Z. replace (KinRep.degToRad 0) with 0 by (unfold KinRep.degToRad; ring). exact KdlSolverExamples.crank_at_zero.
  - rewrite pose_row. unfold Subproblems.dist, at_x, vsub. cbn [fp]. unfold norm, dot. cbn. replace (_ + _ + _) with (4 * 4) by ring. apply sqrt_square. lra.
Qed.

(** *** The tool is taken away again, but the crank no longer moves *)
Definition set_none : list event := [(RestoreOriginalChain, yes); (AppendLink (row 0), yes)].
Definition accepted (z : R) : list event :=
  [(GetEncoders, give [10]); (InvKin (row 1) [10] BASE_FRAME, give [z]); (GetRefSpeeds, give [10]); (SetRefSpeeds [10], yes);
   (GetControlModes, mode 1 VOCAB_CM_POSITION); (Sleep (1 / 10), yes); (GetControlModes, mode 1 VOCAB_CM_POSITION); (PositionMove [z], yes)].
Lemma none_formula : Screw.fromChain (crank_chain ++ [KdlSolverFacts.tool_segment (row 0)]) = BuilderExamples2.crank.
Proof.
  unfold Screw.fromChain, crank_chain, KdlSolverExamples.crank_chain. cbn [app fold_left]. unfold Screw.fromChain_step at 2. cbn [s_joint mk_segment j_type Screw.jointTypeToMotionId joint_axis j_origin].
  rewrite KdlSolverExamples.crank_exp, fmul_id_l, KdlSolverExamples.seg_pose0. unfold Screw.fromChain_step. cbn [s_joint KdlSolverFacts.tool_segment mk_segment KdlSolver.fixed_joint j_type Screw.jointTypeToMotionId].
  fold KdlSolver.fixed_joint. fold (KdlSolverFacts.tool_segment (row 0)). rewrite KdlSolverFacts.tool_segment_pose, row_pose.
  unfold BuilderExamples2.crank. cbn [Screw.exps]. f_equal. unfold fmul, at_x. cbn [fM fp]. rewrite mm_id_l. f_equal. unfold fapp. cbn [fM fp]. rewrite mv_id.
  unfold vadd. cbn. f_equal; ring.
Qed.
Definition there_and_back : list entry := [(OTool back, set_back, true); (OTool (row 0), set_none, true)].
Lemma taken_away : exists n v, history one idle there_and_back idle /\ six_tools there_and_back /\ tool_in_use fid there_and_back = fid /\
  served (crank_dev n) crank_solver (trace_of there_and_back) v /\ KdlSolver.sv_chain v = crank_chain ++ [KdlSolverFacts.tool_segment (row 0)] /\
  KdlSolver.ik_error (KdlSolver.sv_ik v) = KdlSolver.E_SOLUTION_NOT_FOUND.
Proof.
  destruct BuilderFacts3.spindle_null_from as (n & NULL). set (N := S (S (S n))).
  assert (R : exists s, KdlSolver.restoreOriginalChain N [/ 2] crank_solver = Builder.Returns s /\ KdlSolver.sv_chain s = crank_chain /\ KdlSolver.sv_original s = crank_chain).
  { unfold N, KdlSolver.restoreOriginalChain, KdlSolver.st_update. cbn [KdlSolver.sv_original crank_solver]. rewrite KdlSolverExamples.crank_formula, BuilderExamples2.crank_built. eexists. split; [reflexivity|split; reflexivity]. }
  destruct R as (s & R & C1 & C2).
  assert (A : exists s', KdlSolver.appendLink N [/ 2; / 2] back s = Builder.Returns s' /\ KdlSolver.sv_original s' = crank_chain /\ KdlSolver.ik_error (KdlSolver.sv_ik s') = KdlSolver.E_SOLUTION_NOT_FOUND).
  { unfold KdlSolver.appendLink, KdlSolver.st_update. fold (KdlSolverFacts.tool_segment back). rewrite C1. rewrite KdlSolverExamples.spindle_formula, (NULL N) by (unfold N; lia). eexists. split; [reflexivity|]. split; [exact C2|reflexivity]. }
  destruct A as (sa & A & C3 & E3).
  assert (R' : exists s, KdlSolver.restoreOriginalChain N [/ 2] sa = Builder.Returns s /\ KdlSolver.sv_chain s = crank_chain /\ KdlSolver.ik_error (KdlSolver.sv_ik s) = KdlSolver.E_SOLUTION_NOT_FOUND).
  { unfold N, KdlSolver.restoreOriginalChain, KdlSolver.st_update. rewrite C3, KdlSolverExamples.crank_formula, BuilderExamples2.crank_built. eexists. split; [reflexivity|split; [reflexivity|exact E3]]. }
  destruct R' as (sr & R' & C4 & E4).
  assert (B : exists s', KdlSolver.appendLink N [/ 2] (row 0) sr = Builder.Returns s' /\ KdlSolver.sv_chain s' = crank_chain ++ [KdlSolverFacts.tool_segment (row 0)] /\ KdlSolver.ik_error (KdlSolver.sv_ik s') = KdlSolver.E_SOLUTION_NOT_FOUND).
  { unfold KdlSolver.appendLink, KdlSolver.st_update. fold (KdlSolverFacts.tool_segment (row 0)). rewrite C4, none_formula. unfold N. rewrite BuilderExamples2.crank_built. eexists. split; [reflexivity|split; [reflexivity|exact E4]]. }
  destruct B as (sb & B & C5 & E5). exists n, sb.
  split; [eapply hcons; [cbn [do_op]; ex|eapply hcons; [cbn [do_op]; ex|constructor]]|]. split; [repeat constructor|].
  split; [cbn [there_and_back tool_in_use]; exact (pose_row 0)|]. split; [|auto].
  unfold trace_of, there_and_back. cbn [map fst snd concat app]. eapply through_cons; [split; [reflexivity|]; exists [/ 2]; exact R|]. eapply through_cons; [split; [reflexivity|]; exists [/ 2; / 2]; exact A|].
  eapply through_cons; [split; [reflexivity|]; exists [/ 2]; exact R'|]. eapply through_cons; [split; [reflexivity|]; exists [/ 2]; exact B|]. constructor.
Qed.
Lemma lost_refuted : exists d v c y s tr s' v' h s1 v1, opened d crank_chain [] v /\ numJoints c = nr_of_joints (KdlSolver.sv_chain v) /\ length y = 6%nat /\
  exec (movj c y) s tr (Done true) s' /\ served d v tr v' /\
  history c s h s1 /\ six_tools h /\ Forall (fun e => snd e = true) h /\ s1 = s /\ tool_in_use fid h = fid /\ served d v (trace_of h) v1 /\
  forall tr b s2 v2, exec (movj c y) s1 tr (Done b) s2 -> served d v1 tr v2 -> b = false.
Proof.
  destruct taken_away as (n & sb & H & S6 & T & SV & _ & E5). destruct (KdlSolverExamples.crank_inverse 1 10 ltac:(lra)) as (s' & IV). set (z := KinRep.radToDeg 0) in *.
  assert (Z : z = 0) by (unfold z, KinRep.radToDeg; field; apply PI_neq0).
  exists (crank_dev n), crank_solver, one, (row 1), idle, (accepted z). eexists. exists s', there_and_back, idle, sb.
  split; [apply crank_opened|]. split; [reflexivity|]. split; [reflexivity|]. split.
  { cbn. do 2 eexists. split; [reflexivity|]. cbn. do 2 eexists. split; [reflexivity|]. cbn. rewrite (speeds_back z Z). ex. }
  split. { eapply through_cons; [reflexivity|]. eapply through_cons; [exists (Some [z]); split; [exact IV|split; reflexivity]|]. do 6 (eapply through_cons; [reflexivity|]). constructor. }
  split; [exact H|]. split; [exact S6|]. split; [repeat constructor|]. split; [reflexivity|]. split; [exact T|]. split; [exact SV|]. clear SV H.
  intros tr b s2 v2 E SV. unfold movj in E. cbn in E. destruct E as (a & t & -> & E). destruct (ok a) eqn:OA; cbn in E; [|destruct E as (_ & X & _); congruence].
  destruct E as (i & t2 & -> & E). inversion SV as [|? va ? ? ? Ha S3]; subst. cbn in Ha. subst va. inversion S3 as [|? vb ? ? ? Hb S4]; subst. cbn [answers] in Hb. destruct Hb as (r & IR & AN).
  match type of IR with KdlSolver.invKin _ _ ?x ?q ?fr = _ => destruct (KdlSolverFacts.stuck_inv (dev_find (crank_dev n)) sb x q fr E5) as [X|(s4 & X)] end; rewrite X in IR; [discriminate|]. injection IR as <- _. rewrite AN in E. cbn in E. destruct E as (_ & X2 & _). congruence.
Qed.

(** the pose told is the same as before *)
Definition ask_again : list event := [(GetEncoders, give [0]); (Now, number 1); (FwdKin [0], give (row 1))].
Example stat_again : exists d v1, rigid_links crank_chain /\ opened d crank_chain [] crank_solver /\ numJoints one = nr_of_joints crank_chain /\
  exec (stat one true) idle ask_again (Done (Some (row 1, VOCAB_CC_NOT_CONTROLLING, 1))) idle /\ served d crank_solver ask_again crank_solver /\
  six_tools there_and_back /\ history one idle there_and_back idle /\ served d crank_solver (trace_of there_and_back) v1 /\ served d v1 ask_again v1 /\
  tool_in_use fid [] = tool_in_use fid there_and_back /\ tool_in_use fid [(OTool back, set_back, true)] <> tool_in_use fid there_and_back.
Proof.
  destruct taken_away as (n & sb & H & S6 & T & SV & C & _). exists (crank_dev n), sb.
  split; [exact crank_ok|]. split; [apply crank_opened|]. split; [reflexivity|]. split; [ex|]. split.
  { do 2 (eapply through_cons; [reflexivity|]). eapply through_cons; [|constructor]. split; [reflexivity|]. exists (row 1). split; [|split; reflexivity].
    unfold KdlSolver.fwdKin, KdlSolver.joints_in. cbn [KdlSolver.sv_chain crank_solver length Nat.leb firstn map].
    change (nr_of_joints crank_chain) with 1%nat. cbn [length Nat.leb firstn map]. replace (KinRep.degToRad 0) with 0 by (unfold KinRep.degToRad; ring).
    rewrite KdlSolverExamples.crank_at_zero. cbn [option_map]. f_equal. apply x_row. }
  split; [exact S6|]. split; [exact H|]. split; [exact SV|]. split.
  { do 2 (eapply through_cons; [reflexivity|]). eapply through_cons; [|constructor]. split; [reflexivity|]. exists (row 1). split; [|split; reflexivity].
    unfold KdlSolver.fwdKin, KdlSolver.joints_in. rewrite C. change (nr_of_joints (crank_chain ++ [KdlSolverFacts.tool_segment (row 0)])) with 1%nat. cbn [length Nat.leb firstn map].
    replace (KinRep.degToRad 0) with 0 by (unfold KinRep.degToRad; ring).
    unfold chain_fwd_kin, crank_chain, KdlSolverExamples.crank_chain. cbn [app chain_fk]. change (is_fixed (s_joint (mk_segment (J JRotZ 1 0 vzero vzero) (ftrans (V 1 0 0))))) with false.
    change (is_fixed (s_joint (KdlSolverFacts.tool_segment (row 0)))) with true. cbv iota. rewrite KdlSolverExamples.seg_pose0, fmul_id_l, KdlSolverFacts.tool_segment_pose, row_pose.
    cbn [option_map]. f_equal. rewrite <- x_row. f_equal. unfold fmul, at_x, fapp. cbn [fM fp]. rewrite mm_id_l, mv_id. f_equal. apply vec_eq; cbn; ring. }
  rewrite T. split; [reflexivity|]. cbn [tool_in_use]. rewrite back_pose. unfold at_x, fid. intros X. injection X. lra.
Qed.
