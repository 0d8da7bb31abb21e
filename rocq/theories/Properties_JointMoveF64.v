(** What movj and a streamed pose send to the joints, on doubles: C165. *)
From Coq Require Import List ZArith Reals.
From Verif Require Import F64 Rounded RoundedSpec AsibotF64 AsibotF64Spec AsibotF64Examples JointMoveF64 JointMoveF64Facts JointMoveF64Examples.
Import ListNotations.
Open Scope R_scope.

(** C165: with the ASIBOT solver, whatever the pose that is streamed (numbers or not) and whatever the
    encoders tell, the joint positions that are sent are numbers within the limits *)
Theorem C165_pose : forall m s decode js encoders x q, Forall sane js ->
  pose (asibot m s decode js) js encoders x = Some q -> within_limits (map qMin js) (map qMax js) q.
Proof. exact pose_within. Qed.
Print Assumptions C165_pose.
Example C165_pose_example : Forall sane arm /\ exists q, pose (asibot toy default_links plain arm) arm (Some bent) asked = Some q.
Proof. exact (conj arm_sane ex_pose). Qed.

(** C165: so are those that movj sends, and no speed that it sends is NaN, whatever the reference speeds *)
Theorem C165_movj : forall m s decode js refs encoders x v q, Forall sane js -> length js = 5%nat ->
  (forall currentQ, encoders = Some currentQ -> Forall angle currentQ) ->
  movj (asibot m s decode js) refs encoders x = Some (v, q) ->
  within_limits (map qMin js) (map qMax js) q /\ Forall (fun s => isnan s = false) v.
Proof. exact movj_within. Qed.
Print Assumptions C165_movj.
Example C165_movj_example : Forall angle bent /\ exists v q, movj (asibot toy default_links plain arm) pace (Some bent) asked = Some (v, q).
Proof. exact (conj bent_angles ex_movj). Qed.

(** C165: it takes a solver that looks at the limits: the controller itself streams positions that are
    NaN, and positions beyond the limits, even with the robot in the middle of its range *)
Theorem C165_other_solver_refuted : exists (invKin : solver) js q,
  Forall sane js /\ checkJointLimits js q = true /\
  (exists x v, pose invKin js (Some q) x = Some [v] /\ isnan v = true) /\
  (exists x v j, pose invKin js (Some q) x = Some [v] /\ js = [j] /\ finite v = true /\ val (qMax j) + 1 <= val v).
Proof. exact beyond_sent. Qed.
Print Assumptions C165_other_solver_refuted.
