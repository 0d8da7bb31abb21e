(** Theorems about the configuration of KdlSolver (libraries/YarpPlugins/KdlSolver/DeviceDriverImpl.cpp). [kdl_open c sc] reads the chain [c] and the
    solver options [sc] and returns the KDL chain with the inverse kinematics solver, or [None] if the configuration is
    rejected; the spec (ConfigSpec.v) says where the end of the described links is. *)
From Coq Require Import Reals List Bool String ZArith Lra Lia.
From Verif Require Import Kdl KdlFacts KinRep KdlSolver Config ConfigSpec ConfigFacts.
Import ListNotations.
Open Scope R_scope.
Local Notation S := Datatypes.S.
Local Notation length := List.length.

(** C86: forward kinematics of an accepted file is the product of H0, of the described links in their order and of HN *)
Theorem C86_forward : forall c sc k ik n H0 HN, kdl_open c sc = Some (k, ik) ->
  ch_numLinks c = Some (Z.of_nat n) -> Forall described (map (ch_link c) (seq 0 n)) ->
  matrix_at (ch_H0 c) H0 -> matrix_at (ch_HN c) HN ->
  forall o i q, (n <= length q)%nat ->
  exists f, links_at (map (ch_link c) (seq 0 n)) (map degToRad (firstn n q)) f /\
    fwdKin (Sv k o i) q = Some (frameToVector (fmul H0 (fmul f HN))).
Proof. exact open_forward. Qed.
Print Assumptions C86_forward.
Example C86_nonvacuous : (exists k ik, kdl_open arm2 arm2_solver = Some (k, ik)) /\ ch_numLinks arm2 = Some (Z.of_nat 2) /\
  Forall described (map (ch_link arm2) (seq 0 2)) /\ exists f, matrix_at (ch_H0 arm2) f /\ exists g, matrix_at (ch_HN arm2) g.
Proof.
  split; [destruct arm2_open as [k E]; eauto|]. split; [reflexivity|].
  split; [eapply Forall_impl; [|exact arm2_rotary]; intros; now apply rotary_described|].
  eexists. split; [constructor|]. eexists. constructor.
Qed.

(** C87: joint values are in degrees for rotary joints. Missing: prismatic joints, see below. *)
Theorem C87_units_partial : forall c sc k ik n H0 HN, kdl_open c sc = Some (k, ik) ->
  ch_numLinks c = Some (Z.of_nat n) -> Forall rotary (map (ch_link c) (seq 0 n)) ->
  matrix_at (ch_H0 c) H0 -> matrix_at (ch_HN c) HN ->
  forall o i q xs f, length q = n ->
  Forall2 (fun gv x => coordinate (fst gv) (snd gv) x) (combine (map (ch_link c) (seq 0 n)) q) xs ->
  links_at (map (ch_link c) (seq 0 n)) xs f ->
  fwdKin (Sv k o i) q = Some (frameToVector (fmul H0 (fmul f HN))).
Proof. exact open_units. Qed.
Print Assumptions C87_units_partial.
Example C87_nonvacuous : (exists k ik, kdl_open arm2 arm2_solver = Some (k, ik)) /\ Forall rotary (map (ch_link arm2) (seq 0 2)) /\
  Forall2 (fun gv x => coordinate (fst gv) (snd gv) x) (combine (map (ch_link arm2) (seq 0 2)) [30; 45]) [30 * PI / 180; 45 * PI / 180].
Proof. split; [destruct arm2_open as [k E]; eauto|]. split; [exact arm2_rotary|exact arm2_coordinates]. Qed.
(** C87 is false of prismatic joints: their values are taken as degrees too *)
Theorem C87_prismatic_refuted : exists c sc k ik n H0 HN q xs f, kdl_open c sc = Some (k, ik) /\
  ch_numLinks c = Some (Z.of_nat n) /\ Forall described (map (ch_link c) (seq 0 n)) /\
  matrix_at (ch_H0 c) H0 /\ matrix_at (ch_HN c) HN /\ length q = n /\
  Forall2 (fun gv x => coordinate (fst gv) (snd gv) x) (combine (map (ch_link c) (seq 0 n)) q) xs /\
  links_at (map (ch_link c) (seq 0 n)) xs f /\
  forall o i, fwdKin (Sv k o i) q <> Some (frameToVector (fmul H0 (fmul f HN))).
Proof. exact units_broken. Qed.
Print Assumptions C87_prismatic_refuted.

(** C88: one joint for each link. Missing: links whose Type is misspelt, see below. *)
Theorem C88_joints_partial : forall c sc k ik n, kdl_open c sc = Some (k, ik) ->
  ch_numLinks c = Some (Z.of_nat n) -> Forall described (map (ch_link c) (seq 0 n)) -> nr_of_joints k = n.
Proof. exact open_joints. Qed.
Print Assumptions C88_joints_partial.
(** C88 is false of a misspelt Type: the link is left out and the file is accepted *)
Theorem C88_typo_refuted : exists c sc k ik n, kdl_open c sc = Some (k, ik) /\
  ch_numLinks c = Some (Z.of_nat n) /\ nr_of_joints k <> n.
Proof. exact joints_dropped. Qed.
Print Assumptions C88_typo_refuted.
(** C88: a file without one of the links it announces is rejected *)
Theorem C88_missing : forall c sc n i, ch_numLinks c = Some (Z.of_nat n) -> (i < n)%nat ->
  lg_dh (ch_link c i) = None -> lg_xyz (ch_link c i) = None -> kdl_open c sc = None.
Proof. exact open_missing. Qed.
Print Assumptions C88_missing.
Example C88_nonvacuous_missing : exists c, ch_numLinks c = Some (Z.of_nat 2) /\ lg_dh (ch_link c 0) <> None /\
  lg_dh (ch_link c 1) = None /\ lg_xyz (ch_link c 1) = None.
Proof.
  exists (Ch (Some 2%Z) None (fun i => if Nat.eqb i 0 then Lg (Some (Dh 0 0 1 0)) None else Lg None None) None).
  repeat split. discriminate.
Qed.
(** C88: the solvers that know about limits get one ordered pair for each joint *)
Theorem C88_limits : forall c sc k ik lo hi, kdl_open c sc = Some (k, ik) -> limits_of ik = Some (lo, hi) ->
  exists a b, sc_mins sc = Some a /\ sc_maxs sc = Some b /\ length a = nr_of_joints k /\ length b = nr_of_joints k /\
    lo = map degToRad a /\ hi = map degToRad b /\ Forall2 (fun x y => x <= y) a b.
Proof. exact open_limits. Qed.
Print Assumptions C88_limits.
Example C88_nonvacuous_limits : exists k ik, kdl_open arm2 arm2_solver = Some (k, ik) /\
  limits_of ik = Some (map degToRad [-10; -20], map degToRad [10; 20]).
Proof. destruct arm2_open as [k E]. exists k. eexists. split; [exact E|reflexivity]. Qed.
