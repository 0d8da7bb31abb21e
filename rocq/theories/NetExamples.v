(** The crank and the arm of SysExamples used through the network. *)
From Coq Require Import Reals ZArith List Bool Lra Lia.
From Verif Require Import Kdl KdlFacts KdlRot KdlRotFacts KinRepSpec Vocab Bcc BccSpec BccLineSpec BccCmdSpec BccFacts BccExamples BccLineExamples BccCmdExamples Sys SysSpec SysExamples SysExamples2 SysExamples3 Net NetSpec NetFacts.
From Verif Require Rpc RpcSpec RpcFacts KinRep KdlSolver KdlSolverFacts KdlSolverExamples SolverLoopSpec SolverLoopExamples Screw Config ConfigSpec IkPoseExamples.
Import ListNotations.
Open Scope R_scope.
Local Notation S := Datatypes.S.
Local Notation length := List.length.
Local Arguments computeIsocronousSpeeds : simpl never.

(** *** Asking where the crank is, and sending it home *)
Definition visit (z : R) : list (action * list event * Rpc.reply) :=
  [(Method Rpc.RStat, ask_again, Rpc.Stated (row 1) VOCAB_CC_NOT_CONTROLLING 1); (Method (Rpc.RMovj (row 1)), accepted z, Rpc.Okay)].
Lemma rig_stat : exec (stat rig true) idle ask_again (Done (Some (row 1, VOCAB_CC_NOT_CONTROLLING, 1))) idle.
Proof. ex. Qed.
Lemma rig_movj : exists s', exec (movj rig (row 1)) idle (accepted (KinRep.radToDeg 0)) (Done true) s'.
Proof.
  destruct rig_moves as (d & s' & v' & _ & H & _). exists s'. inversion H as [|? s1 ? ? ? ? ? E X]; subst. inversion X; subst. exact E.
Qed.
Example rig_visited : open (1 / 20) 10 50 20 false false BASE_FRAME false 1 (Some [10]) false rig_robot 1 true = Some (rig, idle) /\ sendable (visit (KinRep.radToDeg 0)) /\
  exists s', session (locally rig) idle (visit (KinRep.radToDeg 0)) s'.
Proof.
  split; [reflexivity|]. split; [repeat constructor; discriminate|]. destruct rig_movj as (s' & E). exists s'.
  econstructor; [|econstructor; [|constructor]].
  - exact (by_call rig Rpc.RStat 0 _ _ _ _ (join_done _ (fun o => match o with Some (x, v, t) => Rpc.Stated x v t | None => Rpc.Failed end) _ _ _ _ rig_stat)).
  - exact (by_call rig (Rpc.RMovj (row 1)) 0 _ _ _ _ (join_done _ (fun b : bool => if b then Rpc.Okay else Rpc.Failed) _ _ _ _ E)).
Qed.

(** *** A message to each port: one that moves the crank, one that is not understood, one that is ignored *)
Definition mixture (base : list Rpc.value -> list Rpc.value) (z : R) : list (message * list event * list Rpc.value) :=
  [(ToTransform [Rpc.VFloat 3; Rpc.VList []], [], base [Rpc.VFloat 3; Rpc.VList []]); (ToCommand [Rpc.VVocab VOCAB_CC_STOP], [], []);
   (ToRpc (Rpc.VVocab VOCAB_CC_MOVJ :: map Rpc.VFloat (row 1)), accepted z, Rpc.okay)].
Example rig_mixture base conv : exists d s' v', assembled d rig_robot rig_file rig_options rig idle rig_solver /\ session (handled rig base conv) idle (mixture base (KinRep.radToDeg 0)) s' /\
  served d rig_solver (calls (mixture base (KinRep.radToDeg 0))) v' /\ In (PositionMove [KinRep.radToDeg 0], yes) (calls (mixture base (KinRep.radToDeg 0))).
Proof.
  destruct rig_moves as (d & s' & v' & A & H & SV & IN). exists d, s', v'. split; [exact A|].
  replace (calls (mixture base (KinRep.radToDeg 0))) with (trace_of (going_home (KinRep.radToDeg 0))) by reflexivity. split; [|split; assumption].
  inversion H as [|? s1 ? ? ? ? ? E X]; subst. inversion X; subst.
  econstructor; [|econstructor; [|econstructor; [|constructor]]].
  - apply at_transform. apply by_itself. reflexivity.
  - apply at_command. apply ignored. reflexivity.
  - apply at_rpc. eapply (passed_on rig base Rpc.plain _ (Rpc.RMovj (row 1)) Rpc.yes_no 0); [reflexivity| |].
    + exact (join_done _ (fun b : bool => if b then Rpc.Okay else Rpc.Failed) _ _ _ _ E).
    + reflexivity.
Qed.

(** *** The pose told to the client, and in another representation *)
Definition asked_gain : list (action * list event * Rpc.reply) := [(Method (Rpc.RGet VOCAB_CC_CONFIG_GAIN), [], Rpc.Val (1 / 20))].
Lemma gain_session base : session (remotely rig base) idle asked_gain idle.
Proof.
  apply (transparent (1 / 20) 10 50 20 false false BASE_FRAME false 1 (Some [10]) false rig_robot 1 true); [reflexivity|repeat constructor; discriminate|].
  econstructor; [|constructor]. apply (by_call rig (Rpc.RGet VOCAB_CC_CONFIG_GAIN) 0). cbn. repeat split.
Qed.
Example rig_client base : sendable asked_gain /\ six_numbers asked_gain /\ session (remotely rig base) idle asked_gain idle /\ served (crank_dev 0) rig_solver (calls asked_gain) rig_solver /\
  remotely rig base idle (Method Rpc.RStat) ask_again (Rpc.Stated (row 1) VOCAB_CC_NOT_CONTROLLING 1) idle /\ served (crank_dev 0) rig_solver ask_again rig_solver.
Proof.
  split; [repeat constructor; discriminate|]. split; [repeat constructor|]. split; [apply gain_session|]. split; [constructor|]. split.
  - apply remote_local; [|exact I|].
    + exact (open_health (1 / 20) 10 50 20 false false BASE_FRAME false 1 (Some [10]) false rig_robot 1 true rig idle eq_refl).
    + exact (by_call rig Rpc.RStat 0 _ _ _ _ (join_done _ (fun o => match o with Some (x, v, t) => Rpc.Stated x v t | None => Rpc.Failed end) _ _ _ _ rig_stat)).
  - destruct rig_tells as (_ & _ & _ & _ & _ & _ & _ & _ & _ & _ & _ & S & _). exact S.
Qed.
Example rig_transformed base : exists b, answered rig base (Rpc.transform KinRep.CARTESIAN KinRep.O_RPY KinRep.DEGREES) idle [Rpc.VVocab VOCAB_CC_STAT] ask_again b idle /\
  forall r, rot_of r = mid -> writable KinRep.O_RPY (V 1 0 0) r.
Proof.
  assert (W : forall r, rot_of r = mid -> writable KinRep.O_RPY (V 1 0 0) r).
  { intros r E. unfold writable. rewrite E. cbn [m00 m10 m20 mid]. left. replace (1 * 1 + 0 * 0) with 1 by ring. rewrite sqrt_1. unfold tiny. lra. }
  destruct (RpcFacts.state_converted tt base KinRep.CARTESIAN KinRep.O_RPY KinRep.DEGREES (V 1 0 0) vzero VOCAB_CC_NOT_CONTROLLING 1 I (W vzero (rot_of_zero))) as (k & lp & lo & K1 & K2 & _).
  eexists. split; [|exact W]. eapply (passed_on rig base _ _ Rpc.RStat k 0); [exact K1| |exact K2].
  exact (join_done _ (fun o => match o with Some (x, v, t) => Rpc.Stated x v t | None => Rpc.Failed end) _ _ _ _ rig_stat).
Qed.

(** *** The arm sent home through the transform port *)
Example arm_transformed base : exists q v b s' v', pose_supported KinRep.CARTESIAN KinRep.AXIS_ANGLE_SCALED = true /\ means_pos KinRep.CARTESIAN [1; 0; 0] (V 1 0 0) /\
  means KinRep.AXIS_ANGLE_SCALED KinRep.DEGREES (V 1 0 0) [0; 0; 0] mid /\
  answered arm base (Rpc.transform KinRep.CARTESIAN KinRep.AXIS_ANGLE_SCALED KinRep.DEGREES) idle (Rpc.VVocab VOCAB_CC_MOVJ :: map Rpc.VFloat ([1; 0; 0] ++ [0; 0; 0])) (to_home q v) b s' /\
  b <> Rpc.fail /\ through (unwarned dev) SolverLoopExamples.xs (to_home q v) v' /\ motions (to_home q v) = [PositionMove q].
Proof.
  destruct movj_arm as (q & v & s' & v' & _ & E & T & M). exists q, v, Rpc.okay, s', v'. split; [reflexivity|]. split; [reflexivity|]. split.
  { cbn. replace (0 * PI / 180) with 0 by field. change (V 0 0 0) with vzero. now rewrite rot_of_zero. }
  split; [|split; [discriminate|split; assumption]].
  eapply (passed_on arm base _ _ (Rpc.RMovj (row 1)) Rpc.yes_no 0); [|exact (join_done _ (fun b : bool => if b then Rpc.Okay else Rpc.Failed) _ _ _ _ E)|reflexivity].
  cbn. unfold KinRep.degToRad. replace (0 * (PI / 180)) with 0 by ring. reflexivity.
Qed.
