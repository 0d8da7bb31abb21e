(** Examples for what movj and a streamed pose send to the joints, on doubles. *)
From Coq Require Import List ZArith Reals Lia Lra Bool.
From Verif Require Import F64 F64Facts RoundedFacts Rounded RoundedSpec AsibotF64 AsibotF64Spec AsibotF64Examples JointMoveF64.
Import ListNotations.
Open Scope R_scope.

(** the ASIBOT robot, each joint with 90 degrees to each side *)
Definition turn : joint := Joint (ofZ (-90)) (ofZ 90) fzero (ofZ 20).
Definition arm : list joint := [turn; turn; turn; turn; turn].
(** a pose that comes as position and two angles already *)
Definition plain (x guess : list f64) : option (f64 * f64 * f64 * f64 * f64) :=
  match x with [a; b; c; d; e] => Some (a, b, c, d, e) | _ => None end.
Definition asked : list f64 := [lit 1 1; fzero; lit 12 1; fzero; fzero].
Definition bent : list f64 := [fzero; ofZ 10; fzero; fzero; fzero].
Definition pace : list f64 := [ofZ 10; ofZ 10; ofZ 10; ofZ 10; ofZ 10].

Lemma arm_sane : Forall sane arm.
Proof.
  assert (S : sane turn).
  { destruct (ofZ_ok 90 ltac:(lia)) as (A & B). destruct (ofZ_ok (-90) ltac:(lia)) as (C & D). destruct (ofZ_ok 20 ltac:(lia)) as (E & F).
    unfold sane, turn. cbn [qMin qMax qdotMin qdotMax]. change (val fzero) with 0. rewrite A, B, C, D, E, F.
    repeat split; try reflexivity; try lra; [rewrite Rabs_left | rewrite Rabs_pos_eq]; lra. }
  repeat (constructor; [exact S|]). constructor.
Qed.
Lemma bent_angles : Forall angle bent.
Proof.
  destruct (ofZ_ok 10 ltac:(lia)) as (A & B).
  assert (Z : angle fzero) by (split; [reflexivity|]; change (val fzero) with 0; rewrite Rabs_R0; lra).
  constructor; [exact Z|]. constructor; [split; [exact A|]; rewrite B, Rabs_pos_eq; lra|]. repeat (constructor; [exact Z|]). constructor.
Qed.
Definition some {A} (x : option A) : bool := match x with Some _ => true | None => false end.
Lemma some_ex : forall {A} (x : option A), some x = true -> exists a, x = Some a.
Proof. intros A [a|] H; [eauto|discriminate]. Qed.
Lemma ex_pose : exists q, pose (asibot toy default_links plain arm) arm (Some bent) asked = Some q.
Proof. apply some_ex. vm_compute. reflexivity. Qed.
Lemma ex_movj : exists v q, movj (asibot toy default_links plain arm) pace (Some bent) asked = Some (v, q).
Proof.
  destruct (some_ex (movj (asibot toy default_links plain arm) pace (Some bent) asked)) as ((v, q) & H); [vm_compute; reflexivity|]. eauto.
Qed.
