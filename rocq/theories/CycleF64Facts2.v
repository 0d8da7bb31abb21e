(** Proofs about the cycles of movl in position direct mode with the ASIBOT solver, on doubles. *)
From Coq Require Import List ZArith Reals Bool.
From Verif Require Import F64 Rounded RoundedSpec RoundedExamples AsibotF64 AsibotF64Spec AsibotF64Examples JointMoveF64 JointMoveF64Facts JointMoveF64Examples CycleF64 CycleF64Spec CycleF64Examples.
Import ListNotations.
Open Scope R_scope.

Lemma movl_within : forall m s decode fwdKin poseDiff diffInvKin js p ms movv posd t q a, Forall sane js ->
  run fwdKin poseDiff diffInvKin (asibot m s decode js) js p ms movv posd t q = Positions a -> within_limits (map qMin js) (map qMax js) a.
Proof.
  intros m s decode f pd d js p ms movv posd t q a S.
  assert (K : forall c, command f pd d js p ms t q = c -> match c with Positions _ => False | _ => True end).
  { intros c <-. unfold command. destruct (f q); [|exact I]. destruct (d q _); [|exact I]. destruct (checkJointVelocities _ _); exact I. }
  unfold run. destruct (negb _); [discriminate|]. destruct movv; [intro H; destruct (K _ H)|]. destruct posd.
  - unfold handleMovlPosd. destruct (ended ms t); [discriminate|]. destruct (asibot m s decode js _ q) as [b|] eqn:E; [|discriminate]. intro H. injection H as <-. eapply asibot_within; eauto.
  - unfold handleMovlVel. destruct (ended ms t); [discriminate|]. intro H; destruct (K _ H).
Qed.

(** the ASIBOT robot on a line whose beginning is the pose of the example of JointMoveF64Examples.v *)
Definition raised : path := Path (lit 8 1) (fun s => [fadd (lit 1 1) s; fzero; lit 12 1; fzero; fzero]) (fun _ v => [v; fzero; fzero; fzero; fzero]).
Definition is_positions (c : cycle) : bool := match c with Positions _ => true | _ => false end.
Lemma ex_movl : exists a, run forward differences (fun q x => None) (asibot toy default_links plain arm) arm defaults [line raised (p_duration defaults)] false true fzero bent = Positions a.
Proof.
  assert (H : is_positions (run forward differences (fun q x => None) (asibot toy default_links plain arm) arm defaults [line raised (p_duration defaults)] false true fzero bent) = true) by (vm_compute; reflexivity).
  destruct (run _ _ _ _ _ _ _ _ _ _ _) as [| | |a]; try discriminate H. now exists a.
Qed.

(** with another solver the first cycle of a line sends whatever the solver answers: here 400 degrees, and NaN *)
Lemma movl_beyond : exists (iv iv' : solver) js w q,
  Forall sane js /\ checkJointLimits js q = true /\
  run forward differences (fun q x => None) iv js defaults [line w (p_duration defaults)] false true fzero q = Positions [ofZ 400] /\
  run forward differences (fun q x => None) iv' js defaults [line w (p_duration defaults)] false true fzero q = Positions [fnan].
Proof.
  exists (fun _ _ => Some [ofZ 400]), (fun _ _ => Some [fnan]), [elbow], along, [fzero]. split; [exact elbow_sane|].
  assert (L : checkJointLimits [elbow] [fzero] = true) by (vm_compute; reflexivity). assert (E : ended [line along (p_duration defaults)] fzero = false) by (vm_compute; reflexivity).
  split; [exact L|]. split; unfold run; rewrite L; cbn [negb]; unfold handleMovlPosd; rewrite E; reflexivity.
Qed.
