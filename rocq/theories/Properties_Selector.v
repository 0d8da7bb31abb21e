(** Properties of the configuration selectors (C18-C20). *)
From Coq Require Import Reals List Lra.
From Verif Require Import Kdl KdlFacts Selector SelectorFacts.
Import ListNotations.
Open Scope R_scope.
Local Notation S := Datatypes.S.

(** C18: first use of the least-displacement selector. *)
Theorem C18_first_choice : forall qMin qMax sols guess,
  (forall q, In q sols -> length q = length qMin /\ length q = length qMax) -> length guess = length qMin ->
  exists b s1, configure (new_selector qMin qMax) sols = Some (b, s1) /\
    (b = true <-> exists q, In q sols /\ within qMin qMax q) /\
    exists s2, find_least s1 guess = Some (b, s2) /\
      (b = true -> exists q, retrievePose s2 = Some q /\
        exists i, nth_error sols i = Some q /\ within qMin qMax q /\
        forall j q', nth_error sols j = Some q' -> within qMin qMax q' ->
          displacement guess q < displacement guess q' \/
          (displacement guess q = displacement guess q' /\ (i <= j)%nat)).
Proof. exact first_use. Qed.
Print Assumptions C18_first_choice.
Example C18_example :
  (forall q, In q [[0; 5]; [1; 2]] -> length q = length [-1; -1] /\ length q = length [3; 3]) /\ length [0; 0] = length [-1; -1].
Proof. split; [|reflexivity]. cbn; intros q [<-|[<-|[]]]; auto. Qed.

(** C18: first use of the walking selector. *)
Theorem C18_first_choice_gait : forall qMin qMax sols guess,
  length qMin = 6%nat -> length qMax = 6%nat -> (forall q, In q sols -> length q = 6%nat) -> length guess = 6%nat ->
  exists b s1, configure (new_selector qMin qMax) sols = Some (b, s1) /\
    exists b2 s2, find_gait s1 guess = Some (b2, s2) /\
      (b2 = true <-> exists q, In q sols /\ within qMin qMax q /\ gait_posture q) /\
      (b2 = true -> exists q, retrievePose s2 = Some q /\
        exists i, nth_error sols i = Some q /\ (within qMin qMax q /\ gait_posture q) /\
        forall j q', nth_error sols j = Some q' -> within qMin qMax q' /\ gait_posture q' ->
          displacement guess q < displacement guess q' \/
          (displacement guess q = displacement guess q' /\ (i <= j)%nat)).
Proof. exact first_use_gait. Qed.
Print Assumptions C18_first_choice_gait.
Example C18_gait_example : length [0; 0; 0; 1; 0; 0] = 6%nat /\ gait_posture [0; 0; 0; 1; 0; 0].
Proof.
  split; [reflexivity|]. exists 0, 0, 0, 1, 0, 0. pose proof PI_RGT_0. rewrite Rabs_R0. repeat split; lra.
Qed.

(** C19 is false: after the first success, another branch being within limits is not enough. *)
Theorem C19_availability_refuted : exists qMin qMax sols0 guess0 sols guess s1 s2,
  sel_run find_least (new_selector qMin qMax) [Configure sols0; Find guess0] = Some s1 /\
  (exists q, In q sols /\ within qMin qMax q) /\
  configure s1 sols = Some (true, s2) /\ find_least s2 guess = Some (false, s2).
Proof. exact availability_ex. Qed.
Print Assumptions C19_availability_refuted.

(** C20: after the first success every history keeps the branch chosen then. *)
Theorem C20_branch_kept : forall s0 guess0 s1 os s2 sols guess,
  s_last s0 = None -> find_least s0 guess0 = Some (true, s1) -> sel_run find_least s1 os = Some s2 ->
  (forall q, In q sols -> length q = length (s_min s0) /\ length q = length (s_max s0)) ->
  exists i c, nth_error (s_configs s0) i = Some c /\ retrievePose s1 = Some (c_q c) /\
    ((i < length sols)%nat ->
     exists q b s3 b' s4, nth_error sols i = Some q /\
       configure s2 sols = Some (b, s3) /\ find_least s3 guess = Some (b', s4) /\
       (b' = true <-> within (s_min s0) (s_max s0) q) /\
       (b' = true -> retrievePose s4 = Some q)).
Proof. exact branch_kept. Qed.
Print Assumptions C20_branch_kept.
Example C20_example : exists s0 s1 s2, s_last s0 = None /\ find_least s0 [0] = Some (true, s1) /\
  sel_run find_least s1 [Find [0]; Find [3]] = Some s2.
Proof.
  exists (Sel [-1] [1] [Cfg [0] true] None None). do 2 eexists. repeat split; reflexivity.
Qed.

(** C20 for the walking selector. *)
Theorem C20_branch_kept_gait : forall s0 guess0 s1 os s2 sols guess,
  s_last s0 = None -> find_gait s0 guess0 = Some (true, s1) -> sel_run find_gait s1 os = Some s2 ->
  length (s_min s0) = 6%nat -> length (s_max s0) = 6%nat ->
  (forall q, In q sols -> length q = 6%nat) -> length guess = 6%nat ->
  exists i c, nth_error (s_configs s0) i = Some c /\ retrievePose s1 = Some (c_q c) /\
    ((i < length sols)%nat ->
     exists q b s3 b' s4, nth_error sols i = Some q /\
       configure s2 sols = Some (b, s3) /\ find_gait s3 guess = Some (b', s4) /\
       (b' = true <-> within (s_min s0) (s_max s0) q /\ gait_posture q) /\
       (b' = true -> retrievePose s4 = Some q)).
Proof. exact branch_kept_gait. Qed.
Print Assumptions C20_branch_kept_gait.
Example C20_gait_example : exists s0 s1, s_last s0 = None /\ find_gait s0 [0; 0; 0; 0; 0; 0] = Some (true, s1) /\
  length (s_min s0) = 6%nat /\ length (s_max s0) = 6%nat.
Proof.
  set (q := [0; 0; 0; 1; 0; 0]). set (lim := [0; 0; 0; 1; 0; 0]).
  assert (A : discard [Cfg q true] = Some [Cfg q true]).
  { cbn. pose proof PI_RGT_0. rewrite Rabs_R0. replace (Rltb (PI / 2) 0) with false by (symmetry; apply Rltb_false; lra).
    replace (Rltb 1 0) with false by (symmetry; apply Rltb_false; lra). reflexivity. }
  exists (Sel lim lim [Cfg q true] None None). eexists. split; [reflexivity|]. split; [|split; reflexivity].
  unfold find_gait. cbn [length Nat.eqb negb s_configs]. rewrite A. reflexivity.
Qed.
