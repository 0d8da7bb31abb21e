(** Vocabularies of the Cartesian control and solver interfaces.

    [createVocab32] (YARP, external, from memory): the characters packed into an integer,
    least significant byte first. *)
From Coq Require Import ZArith List String Ascii.
Import ListNotations.
Open Scope Z_scope.

Fixpoint vocab (s : string) : Z :=
  match s with
  | EmptyString => 0
  | String c s' => Z.of_nat (nat_of_ascii c) + 256 * vocab s'
  end.

(** ICartesianControl.h 34-40 *)
Definition VOCAB_CC_OK : Z := Eval compute in vocab "ok".
Definition VOCAB_CC_FAILED : Z := Eval compute in vocab "fail".
Definition VOCAB_CC_SET : Z := Eval compute in vocab "set".
Definition VOCAB_CC_GET : Z := Eval compute in vocab "get".
Definition VOCAB_CC_NOT_SET : Z := Eval compute in vocab "nset".
(** ICartesianControl.h 52-64 *)
Definition VOCAB_CC_STAT : Z := Eval compute in vocab "stat".
Definition VOCAB_CC_INV : Z := Eval compute in vocab "inv".
Definition VOCAB_CC_MOVJ : Z := Eval compute in vocab "movj".
Definition VOCAB_CC_RELJ : Z := Eval compute in vocab "relj".
Definition VOCAB_CC_MOVL : Z := Eval compute in vocab "movl".
Definition VOCAB_CC_MOVV : Z := Eval compute in vocab "movv".
Definition VOCAB_CC_GCMP : Z := Eval compute in vocab "gcmp".
Definition VOCAB_CC_FORC : Z := Eval compute in vocab "forc".
Definition VOCAB_CC_STOP : Z := Eval compute in vocab "stop".
Definition VOCAB_CC_WAIT : Z := Eval compute in vocab "wait".
Definition VOCAB_CC_TOOL : Z := Eval compute in vocab "tool".
Definition VOCAB_CC_ACT : Z := Eval compute in vocab "act".
(** ICartesianControl.h 76-83 *)
Definition VOCAB_CC_POSE : Z := Eval compute in vocab "pose".
Definition VOCAB_CC_MOVI : Z := Eval compute in vocab "movi".
Definition VOCAB_CC_TWIST : Z := Eval compute in vocab "twst".
Definition VOCAB_CC_WRENCH : Z := Eval compute in vocab "wrnc".
(** ICartesianControl.h 95-101 *)
Definition VOCAB_CC_NOT_CONTROLLING : Z := Eval compute in vocab "ccnc".
Definition VOCAB_CC_MOVJ_CONTROLLING : Z := Eval compute in vocab "ccjc".
Definition VOCAB_CC_MOVL_CONTROLLING : Z := Eval compute in vocab "cclc".
Definition VOCAB_CC_MOVV_CONTROLLING : Z := Eval compute in vocab "ccvc".
Definition VOCAB_CC_GCMP_CONTROLLING : Z := Eval compute in vocab "ccgc".
Definition VOCAB_CC_FORC_CONTROLLING : Z := Eval compute in vocab "ccfc".
(** ICartesianControl.h 114-119 *)
Definition VOCAB_CC_ACTUATOR_NONE : Z := Eval compute in vocab "acn".
Definition VOCAB_CC_ACTUATOR_CLOSE_GRIPPER : Z := Eval compute in vocab "accg".
Definition VOCAB_CC_ACTUATOR_OPEN_GRIPPER : Z := Eval compute in vocab "acog".
Definition VOCAB_CC_ACTUATOR_STOP_GRIPPER : Z := Eval compute in vocab "acsg".
Definition VOCAB_CC_ACTUATOR_GENERIC : Z := Eval compute in vocab "acg".
(** ICartesianControl.h 129-135 *)
Definition VOCAB_CC_CONFIG_PARAMS : Z := Eval compute in vocab "prms".
Definition VOCAB_CC_CONFIG_GAIN : Z := Eval compute in vocab "cpcg".
Definition VOCAB_CC_CONFIG_TRAJ_DURATION : Z := Eval compute in vocab "cptd".
Definition VOCAB_CC_CONFIG_CMC_PERIOD : Z := Eval compute in vocab "cpcp".
Definition VOCAB_CC_CONFIG_WAIT_PERIOD : Z := Eval compute in vocab "cpwp".
Definition VOCAB_CC_CONFIG_FRAME : Z := Eval compute in vocab "cpf".
Definition VOCAB_CC_CONFIG_STREAMING_CMD : Z := Eval compute in vocab "cpsc".
(** ICartesianSolver.h 26-30 *)
Definition BASE_FRAME : Z := Eval compute in vocab "cpfb".
Definition TCP_FRAME : Z := Eval compute in vocab "cpft".
(** YARP IControlMode.h (external, from memory): control modes *)
Definition VOCAB_CM_POSITION : Z := Eval compute in vocab "pos".
Definition VOCAB_CM_POSITION_DIRECT : Z := Eval compute in vocab "posd".
Definition VOCAB_CM_VELOCITY : Z := Eval compute in vocab "vel".
Definition VOCAB_CM_TORQUE : Z := Eval compute in vocab "torq".
