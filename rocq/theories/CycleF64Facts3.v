(** Proofs about the twists that the cycles of movl and movv ask the solver for, on doubles. *)
From Coq Require Import List ZArith Reals Lia Lra Bool.
From Flocq Require Import Core IEEE754.BinarySingleNaN.
From Verif Require Import F64 F64Facts F64More Rounded RoundedSpec RoundedFacts RoundedExamples Vocab CycleF64 CycleF64Spec CycleF64Facts CycleF64Examples.
Import ListNotations.
Open Scope R_scope.

Lemma rnd_within : forall e x, (-1074 <= e)%Z -> Rabs x <= bpow radix2 e -> Rabs (rnd x) <= bpow radix2 e.
Proof. intros e x H B. rewrite rnd_abs. now apply rnd_high. Qed.
Lemma times_within : forall a b x y, (-1074 <= a + b <= 1000)%Z -> finite x = true -> finite y = true -> Rabs (val x) <= bpow radix2 a -> Rabs (val y) <= bpow radix2 b ->
  finite (fmul x y) = true /\ Rabs (val (fmul x y)) <= bpow radix2 (a + b).
Proof.
  intros a b x y H Fx Fy Bx By. assert (B : Rabs (val x * val y) <= bpow radix2 (a + b)).
  { rewrite Rabs_mult, bpow_plus. apply Rmult_le_compat; auto using Rabs_pos. }
  destruct (fmul_ok x y Fx Fy) as (F & V). { apply Rle_trans with (1 := B). apply bpow_le. lia. }
  split; [exact F|]. rewrite V. apply rnd_within; [lia|exact B].
Qed.
Lemma million : 1000000 <= bpow radix2 20. Proof. cbn. lra. Qed.

Lemma law_number : forall p x v, usable p -> a_number x -> a_number v -> finite (law p x v) = true.
Proof.
  intros p x v (G & C) (Fx & Bx) (Fv & Bv). destruct G as (Fg & Bg). pose proof million as M. unfold law.
  destruct (ofZ_ok 1000 ltac:(lia)) as (Fm & Vm). destruct (ofZ_ok (p_cmc p) ltac:(lia)) as (Fc & Vc).
  assert (Pc : 1 <= IZR (p_cmc p)) by (apply (IZR_le 1); lia).
  assert (Q : 0 <= 1000 / IZR (p_cmc p) <= 1000).
  { split; [apply Rlt_le, Rdiv_lt_0_compat; lra|]. apply (Rmult_le_reg_r (IZR (p_cmc p))); [lra|]. unfold Rdiv. rewrite Rmult_assoc, Rinv_l by lra. nra. }
  destruct (fdiv_ok (ofZ 1000) (ofZ (p_cmc p)) Fm) as (Fd & Vd); [rewrite Vc; lra|rewrite Vc, Vm; pose proof huge_big; apply Rabs_le; lra|].
  rewrite Vc, Vm in Vd.
  assert (Bd : Rabs (val (fdiv (ofZ 1000) (ofZ (p_cmc p)))) <= bpow radix2 10). { rewrite Vd. apply rnd_within; [lia|]. rewrite Rabs_pos_eq by lra. cbn. lra. }
  destruct (times_within 20 10 _ _ ltac:(lia) Fg Fd ltac:(lra) Bd) as (Fe & Be).
  destruct (times_within 20 (20 + 10) _ _ ltac:(lia) Fx Fe ltac:(lra) Be) as (Ff & Bf).
  apply (fadd_ok _ v Ff Fv). apply Rle_trans with (1 := Rabs_triang _ _). pose proof huge_big. assert (bpow radix2 (20 + (20 + 10)) <= 10000000000000000) by (cbn; lra). lra.
Qed.
Lemma laws_numbers : forall p diff xdot, usable p -> Forall a_number diff -> Forall a_number xdot -> forallb finite (laws p diff xdot) = true.
Proof.
  intros p diff xdot U D. revert xdot. induction D as [|x diff Dx _ IH]; intros xdot X; [reflexivity|]. destruct X as [|v xdot Xv X]; [reflexivity|].
  cbn [laws forallb]. rewrite (IH _ X), andb_true_r. now apply law_number.
Qed.
Lemma asked_numbers : forall fwdKin poseDiff diffInvKin invKin js p ms movv posd t q, usable p ->
  (forall a b, Forall a_number (poseDiff a b)) -> Forall (fun m => Forall a_number (m_vel m t)) ms ->
  run fwdKin poseDiff diffInvKin invKin js p ms movv posd t q =
  run fwdKin poseDiff (fun q x => if forallb finite x then diffInvKin q x else None) invKin js p ms movv posd t q.
Proof.
  intros f pd d iv js p ms movv posd t q U D V.
  assert (X : Forall a_number (concat (map (fun m => m_vel m t) ms))). { induction V as [|m ms' Vm _ IH]; [constructor|]. cbn [map concat]. apply Forall_app. now split. }
  assert (K : command f pd d js p ms t q = command f pd (fun q x => if forallb finite x then d q x else None) js p ms t q).
  { unfold command. destruct (f q) as [cx|]; [|reflexivity]. now rewrite (laws_numbers p _ _ U (D _ _) X). }
  unfold run, handleMovv, handleMovlVel. now rewrite K.
Qed.

(** a period of half a millisecond is kept as 0, and the cycle sends NaN when the tool is where it should be *)
Lemma period_leaps : exists p p' half, in_order p /\ Forall sane [elbow] /\ finite half = true /\ 0 < val half /\ setParameter true granted p CmcPeriod half = Set_to p' /\
  run forward differences (fun q x => Some (matrix_times (jacobian q) x)) hundred [elbow] p' [line along (p_duration p')] false false fzero [fzero] = Velocities [fnan].
Proof.
  exists defaults, (Params (lit 5 2) (ofZ 10) 0 30 BASE_FRAME 0), (lit 5 1). split; [exact defaults_in_order|]. split; [exact elbow_sane|]. split; [reflexivity|].
  split. { change 0 with (val fzero). apply fltb_val; vm_compute; reflexivity. }
  split. { assert (T : to_int (lit 5 1) = Some 0%Z) by (vm_compute; reflexivity). cbn [setParameter negb]. rewrite T. reflexivity. }
  unfold run. replace (checkJointLimits [elbow] [fzero]) with true by (vm_compute; reflexivity). cbn [negb]. unfold handleMovlVel. cbn [p_duration].
  replace (ended [line along (ofZ 10)] fzero) with false by (vm_compute; reflexivity). unfold command. cbn [forward].
  match goal with |- (if checkJointVelocities _ ?l then _ else _) = _ => assert (E : l = [fnan]) by (apply (f_equal (fun x => [x])); apply isnan_eq; vm_compute; reflexivity); rewrite E end.
  replace (checkJointVelocities [elbow] [fnan]) with true by (vm_compute; reflexivity). reflexivity.
Qed.

(** the hypotheses are met: the line of CycleF64Examples.v with the default parameters, a second after its start *)
Definition still (a b : list f64) : list f64 := map (fun _ => fzero) a.
Example asked_example : usable defaults /\ (forall a b, Forall a_number (still a b)) /\ Forall (fun m => Forall a_number (m_vel m (ofZ 1))) [line along (p_duration defaults)] /\
  exists v, run forward still (fun q x => Some (matrix_times (jacobian q) x)) hundred [elbow] defaults [line along (p_duration defaults)] false false (ofZ 1) [fzero] = Velocities [v] /\ fltb fzero v = true.
Proof.
  assert (Z : a_number fzero). { split; [reflexivity|]. change (val fzero) with 0. rewrite Rabs_R0. lra. }
  assert (N : forall x, finite x = true -> fleb fzero x = true -> fleb x (ofZ 1000000) = true -> a_number x).
  { intros x F A B. destruct (ofZ_ok 1000000 ltac:(lia)) as (Fm & Vm). apply fleb_val in A; [|reflexivity|exact F]. apply fleb_val in B; [|exact F|exact Fm]. rewrite Vm in B. change (val fzero) with 0 in A. split; [exact F|]. rewrite Rabs_pos_eq; lra. }
  split. { split; [|cbn; lia]. cbn [defaults p_gain]. apply N; vm_compute; reflexivity. }
  split. { intros a b. unfold still. apply Forall_map, Forall_forall. intros. exact Z. }
  split. { constructor; [|constructor]. cbn [line m_vel along twist_on]. constructor; [apply N; vm_compute; reflexivity|repeat (constructor; [exact Z|]); constructor]. }
  unfold run. replace (checkJointLimits [elbow] [fzero]) with true by (vm_compute; reflexivity). cbn [negb]. unfold handleMovlVel.
  replace (ended [line along (p_duration defaults)] (ofZ 1)) with false by (vm_compute; reflexivity). unfold command. cbn [forward].
  match goal with |- exists v, (if ?b then _ else _) = _ /\ _ => replace b with true by (vm_compute; reflexivity) end.
  eexists. split; [reflexivity|]. vm_compute. reflexivity.
Qed.
