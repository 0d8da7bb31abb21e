(** Proofs about the search of subproblems. *)
From Coq Require Import Reals List Bool Arith Lia Lra Permutation.
From Verif Require Import Kdl KdlFacts Screw Trig Subproblems IkProblem Builder BuilderSpec.
Import ListNotations.
Open Scope R_scope.
Local Notation S := Datatypes.S.

(** ** The geometric tests mean what the vocabulary says *)
Lemma Equal_spec : forall a b, Equal a b = true <-> Rabs (a - b) < kdl_eps.
Proof.
  intros. unfold Equal, Rltb. destruct (Rlt_dec (a - b) kdl_eps), (Rlt_dec (- kdl_eps) (a - b)); cbn; split; intros H; try discriminate; try reflexivity.
  - apply Rabs_def1; lra.
  - apply Rabs_def2 in H. lra.
  - apply Rabs_def2 in H. lra.
  - apply Rabs_def2 in H. lra.
Qed.
Lemma EqualV_zero : forall v, EqualV v vzero = true <-> small v.
Proof.
  intros [x y z]. unfold EqualV, small. cbn. rewrite !andb_true_iff, !Equal_spec, !Rminus_0_r. tauto.
Qed.
Lemma EqualV_sub : forall u v, EqualV u v = true <-> small (vsub u v).
Proof.
  intros [x y z] [x' y' z']. unfold EqualV, small. cbn. rewrite !andb_true_iff, !Equal_spec. tauto.
Qed.
Lemma lies_spec : forall e p, liesOnAxis e p = true <-> near_axis e p.
Proof. intros. apply EqualV_zero. Qed.
Lemma lies_false : forall e p, liesOnAxis e p = false <-> ~ near_axis e p.
Proof. intros. rewrite <- lies_spec. destruct (liesOnAxis e p); split; congruence. Qed.
Lemma parallel_spec : forall e1 e2, parallelAxes e1 e2 = true <-> near_parallel e1 e2.
Proof. intros. apply EqualV_zero. Qed.
Lemma parallel_false : forall e1 e2, parallelAxes e1 e2 = false <-> ~ near_parallel e1 e2.
Proof. intros. rewrite <- parallel_spec. destruct (parallelAxes e1 e2); split; congruence. Qed.
Lemma rot_spec : forall e, is_rotation e = true <-> e_motion e = ROTATION.
Proof. intros. unfold is_rotation. destruct (e_motion e); split; congruence. Qed.
Lemma trans_spec : forall e, is_translation e = true <-> e_motion e = TRANSLATION.
Proof. intros. unfold is_translation, is_rotation. destruct (e_motion e); cbn; split; congruence. Qed.
Lemma intersect_spec : forall e1 e2 r, intersectingAxes e1 e2 = Some r ->
  exists t s, r = point_on e1 t /\ small (vsub r (point_on e2 s)).
Proof.
  intros e1 e2 r. unfold intersectingAxes. destruct (Reqb _ _); [discriminate|].
  destruct (EqualV _ _) eqn:Q; [|discriminate]. intros [= <-].
  apply EqualV_sub in Q. eexists _, _. split; [reflexivity|exact Q].
Qed.

(** ** Positions *)
Definition known_at (ts : list pterm) (i : nat) : bool := nth i (map t_known ts) false.
Definition simp_at (ts : list pterm) (i : nat) : bool := nth i (map t_simp ts) false.
Definition same_terms (ts ts' : list pterm) : Prop := map t_exp ts' = map t_exp ts /\ map t_known ts' = map t_known ts.

Lemma same_len : forall ts ts', same_terms ts ts' -> length ts' = length ts.
Proof. intros ts ts' [H _]. rewrite <- (map_length t_exp ts'), H. apply map_length. Qed.
Lemma same_refl : forall ts, same_terms ts ts.
Proof. split; reflexivity. Qed.
Lemma same_trans : forall a b c, same_terms a b -> same_terms b c -> same_terms a c.
Proof. intros a b c [A B] [C D]. split; congruence. Qed.
Lemma same_known : forall ts ts' i, same_terms ts ts' -> known_at ts' i = known_at ts i.
Proof. intros ts ts' i [_ H]. unfold known_at. now rewrite H. Qed.
Lemma same_exp : forall ts ts' i, same_terms ts ts' -> exp_at ts' i = exp_at ts i.
Proof. intros ts ts' i [H _]. unfold exp_at. now rewrite H. Qed.

Lemma change_len : forall g i ts, length (change g i ts) = length ts.
Proof. intros g i ts. revert i. induction ts as [|t ts IH]; intros [|i]; cbn; congruence. Qed.
Lemma change_same : forall i ts, same_terms ts (change set_simp i ts).
Proof.
  intros i ts. revert i. induction ts as [|t ts IH]; intros [|i]; try (split; reflexivity).
  destruct (IH i) as [A B]. split; cbn; congruence.
Qed.
Lemma change_simp : forall i ts j, (i < length ts)%nat -> simp_at (change set_simp i ts) j = simp_at ts j || Nat.eqb j i.
Proof.
  intros i ts. revert i. induction ts as [|t ts IH]; intros [|i] [|j] L; cbn in *; try lia; unfold simp_at; cbn; rewrite ?orb_true_r, ?orb_false_r; try reflexivity.
  apply (IH i j). lia.
Qed.
Lemma change_known : forall i ts j, (i < length ts)%nat -> known_at (change set_known i ts) j = known_at ts j || Nat.eqb j i.
Proof.
  intros i ts. revert i. induction ts as [|t ts IH]; intros [|i] [|j] L; cbn in *; try lia; unfold known_at; cbn; rewrite ?orb_true_r, ?orb_false_r; try reflexivity.
  apply (IH i j). lia.
Qed.
Lemma change_known_exp : forall i ts, map t_exp (change set_known i ts) = map t_exp ts.
Proof. intros i ts. revert i. induction ts as [|t ts IH]; intros [|i]; cbn; try reflexivity. now rewrite IH. Qed.

Lemma nth_error_at : forall ts i, (i < length ts)%nat ->
  exists t, nth_error ts i = Some t /\ t_exp t = exp_at ts i /\ t_known t = known_at ts i /\ t_simp t = simp_at ts i.
Proof.
  intros ts i. revert i. induction ts as [|t ts IH]; intros [|i] L; cbn in *; try lia.
  - exists t. auto.
  - apply (IH i). lia.
Qed.
Lemma known_at_len : forall ts i, known_at ts i = true -> (i < length ts)%nat.
Proof.
  intros ts i H. destruct (le_lt_dec (length ts) i) as [L|]; [|assumption].
  unfold known_at in H. rewrite nth_overflow in H; [discriminate|now rewrite map_length].
Qed.
Lemma simp_at_len : forall ts i, simp_at ts i = true -> (i < length ts)%nat.
Proof.
  intros ts i H. destruct (le_lt_dec (length ts) i) as [L|]; [|assumption].
  unfold simp_at in H. rewrite nth_overflow in H; [discriminate|now rewrite map_length].
Qed.

(** ** Searches in the vector of terms *)
Lemma find_last_some : forall f ts i, find_last f ts = Some i ->
  exists t, nth_error ts i = Some t /\ f t = true /\ forall j t', (i < j)%nat -> nth_error ts j = Some t' -> f t' = false.
Proof.
  induction ts as [|t ts IH]; cbn; intros i H; [discriminate|].
  destruct (find_last f ts) as [k|] eqn:F.
  - injection H as <-. destruct (IH k eq_refl) as (t' & A & B & C). exists t'. split; [exact A|]. split; [exact B|].
    intros [|j] t'' L N; [lia|]. cbn in N. apply (C j); [lia|exact N].
  - destruct (f t) eqn:Ft; [|discriminate]. injection H as <-. exists t. split; [reflexivity|]. split; [exact Ft|].
    intros [|j] t' L N; [lia|]. cbn in N.
    clear -F N. revert j N. induction ts as [|u ts IH]; intros j N; [now rewrite (proj2 (nth_error_None _ _)) in N by (cbn; lia)|].
    cbn in F. destruct (find_last f ts) eqn:G; [discriminate|]. destruct (f u) eqn:Fu; [discriminate|].
    destruct j as [|j]; cbn in N; [congruence|]. exact (IH eq_refl j N).
Qed.
Lemma find_last_none : forall f ts, find_last f ts = None -> forall t, In t ts -> f t = false.
Proof.
  induction ts as [|u ts IH]; cbn; intros F t I; [easy|].
  destruct (find_last f ts) eqn:G; [discriminate|]. destruct (f u) eqn:Fu; [discriminate|].
  destruct I as [<-|I]; [exact Fu|exact (IH eq_refl t I)].
Qed.
Lemma find_first_some : forall f ts i, find_first f ts = Some i ->
  exists t, nth_error ts i = Some t /\ f t = true /\ forall j t', (j < i)%nat -> nth_error ts j = Some t' -> f t' = false.
Proof.
  induction ts as [|t ts IH]; cbn; intros i H; [discriminate|].
  destruct (f t) eqn:Ft.
  - injection H as <-. exists t. split; [reflexivity|]. split; [exact Ft|]. intros; lia.
  - destruct (find_first f ts) as [k|] eqn:F; [|discriminate]. injection H as <-.
    destruct (IH k eq_refl) as (t' & A & B & C). exists t'. split; [exact A|]. split; [exact B|].
    intros [|j] t'' L N; cbn in N; [congruence|]. apply (C j); [lia|exact N].
Qed.
Lemma find_first_none : forall f ts, find_first f ts = None -> forall t, In t ts -> f t = false.
Proof.
  induction ts as [|u ts IH]; cbn; intros F t I; [easy|].
  destruct (f u) eqn:Fu; [discriminate|]. destruct (find_first f ts) eqn:G; [discriminate|].
  destruct I as [<-|I]; [exact Fu|exact (IH eq_refl t I)].
Qed.
Lemma some_len : forall {A} (l : list A) i x, nth_error l i = Some x -> (i < length l)%nat.
Proof. intros. apply nth_error_Some. congruence. Qed.

(** ** Simplification changes nothing but its marks *)
Lemma mark_leading_same : forall ts, same_terms ts (mark_leading ts).
Proof.
  induction ts as [|t ts [A B]]; [apply same_refl|]. cbn. destruct (t_known t) eqn:K; [|apply same_refl].
  split; cbn; congruence.
Qed.
Lemma rev_same : forall ts ts', same_terms ts ts' -> same_terms (rev ts) (rev ts').
Proof. intros ts ts' [A B]. split; rewrite !map_rev; congruence. Qed.
Lemma refresh_same : forall ts, same_terms ts (refresh ts).
Proof.
  intros ts. unfold refresh. set (u := map _ ts).
  assert (U : same_terms ts u) by (split; unfold u; rewrite map_map; reflexivity).
  eapply same_trans; [exact U|].
  assert (V : same_terms (rev u) (mark_leading (rev (mark_leading u)))).
  { eapply same_trans; [apply rev_same, mark_leading_same|apply mark_leading_same]. }
  apply rev_same in V. now rewrite rev_involutive in V.
Qed.
Lemma simp_left_same : forall n p ts, same_terms ts (simp_left n p ts).
Proof.
  induction n as [|n IH]; intros p ts; cbn; [apply same_refl|].
  destruct (_ && _); [|apply same_refl]. eapply same_trans; [apply change_same|apply IH].
Qed.
Lemma simp_right_same : forall k i p ts, same_terms ts (simp_right k i p ts).
Proof.
  induction k as [|k IH]; intros i p ts; cbn; [apply same_refl|].
  destruct (_ && _); [|apply same_refl]. eapply same_trans; [apply change_same|apply IH].
Qed.
Lemma simplifyPK1_same : forall p ts, same_terms ts (simplifyPK1 p ts).
Proof. intros. unfold simplifyPK1. destruct (find_last _ _); [apply simp_left_same|apply same_refl]. Qed.
Lemma simplifyPK3_same : forall p ts, same_terms ts (simplifyPK3 p ts).
Proof. intros. unfold simplifyPK3. destruct (find_first _ _); [apply simp_right_same|apply same_refl]. Qed.
Lemma simp_range_same : forall len lo ts, same_terms ts (simp_range lo len ts).
Proof.
  unfold simp_range. induction len as [|len IH]; intros lo ts; cbn; [apply same_refl|].
  eapply same_trans; [apply change_same|apply IH].
Qed.
Lemma simplifyPG1_same : forall ts, same_terms ts (simplifyPG1 ts).
Proof.
  intros ts. unfold simplifyPG1. destruct (find_first _ _) as [a|]; [|apply same_refl]. destruct (find_last _ _) as [b|]; [|apply same_refl].
  destruct (Nat.leb _ _); [apply same_refl|]. destruct (is_translation _).
  - destruct (plane_right _ _ _); [apply simp_range_same|apply same_refl].
  - destruct (is_translation _); [|apply same_refl]. destruct (plane_left _ _ _ _); [apply simp_range_same|apply same_refl].
Qed.
Lemma simplify_same : forall d p0 p1 ts, same_terms ts (simplify d p0 p1 ts).
Proof.
  intros. unfold simplify. destruct (Nat.eqb d 1).
  - eapply same_trans; [apply simplifyPK1_same|apply simplifyPK3_same].
  - destruct (existsb _ _); [|apply simplifyPK1_same]. eapply same_trans; [apply simplifyPK1_same|apply simplifyPG1_same].
Qed.

(** ** One attempt *)
Lemma count_split : forall f ts n, (0 < count f ts)%nat -> find_last f ts = Some n ->
  count f (firstn n ts) = (count f ts - 1)%nat.
Proof.
  intros f ts n _ F. destruct (find_last_some f ts n F) as (t & A & B & C).
  apply nth_error_split in A. destruct A as (l1 & l2 & -> & <-).
  rewrite firstn_app, firstn_all, Nat.sub_diag. cbn [firstn]. rewrite app_nil_r.
  unfold count. rewrite filter_app, app_length. cbn. rewrite B. cbn.
  assert (Z : filter f l2 = []).
  { assert (Q : forall t', In t' l2 -> f t' = false).
    { intros t' I. apply In_nth_error in I. destruct I as (k & K).
      apply (C (length l1 + S k)%nat); [lia|]. rewrite nth_error_app2 by lia.
      replace (length l1 + S k - length l1)%nat with (S k) by lia. exact K. }
    clear -Q. induction l2 as [|u l IH]; [reflexivity|]. cbn. rewrite (Q u) by now left.
    apply IH. intros t' I. apply Q. now right. }
  rewrite Z. cbn. lia.
Qed.
Lemma filter_one : forall f ts, (1 <= count f ts)%nat -> exists i, find_last f ts = Some i.
Proof.
  intros f ts C. destruct (find_last f ts) as [i|] eqn:N; [eauto|]. exfalso.
  pose proof (find_last_none f ts N) as Q. unfold count in C.
  assert (Z : filter f ts = []); [|rewrite Z in C; cbn in C; lia].
  clear -Q. induction ts as [|u l IH]; [reflexivity|]. cbn. rewrite (Q u) by now left.
  apply IH. intros t' I. apply Q. now right.
Qed.

Lemma nth_error_exp : forall ts i, (i < length ts)%nat -> nth_error (map t_exp ts) i = Some (exp_at ts i).
Proof.
  intros ts i L. destruct (nth_error_at ts i L) as (t & A & B & _). rewrite nth_error_map, A. cbn. now rewrite B.
Qed.
Lemma uns_at : forall ts i t, nth_error ts i = Some t -> unknownNotSimplifiedTerm t = true ->
  known_at ts i = false /\ simp_at ts i = false /\ (i < length ts)%nat.
Proof.
  intros ts i t N U. pose proof (some_len _ _ _ N) as L. destruct (nth_error_at ts i L) as (t' & A & _ & B & C).
  rewrite N in A. injection A as <-. unfold unknownNotSimplifiedTerm in U. rewrite B, C in U.
  destruct (known_at ts i), (simp_at ts i); cbn in U; auto; discriminate.
Qed.

(** what a successful attempt did to the terms *)
Definition advanced (ts ts' : list pterm) (s : sub) : Prop :=
  map t_exp ts' = map t_exp ts /\ NoDup (sub_ids s) /\ sub_ids s <> [] /\
  (forall i, In i (sub_ids s) -> known_at ts i = false /\ simp_at ts i = false /\ (i < length ts)%nat) /\
  (forall i, known_at ts' i = known_at ts i || existsb (Nat.eqb i) (sub_ids s)).

Lemma advanced_one : forall ts s l, sub_ids s = [l] -> known_at ts l = false -> simp_at ts l = false -> (l < length ts)%nat ->
  advanced ts (change set_known l ts) s.
Proof.
  intros ts s l I K Sp L. unfold advanced. rewrite I. split; [apply change_known_exp|].
  split; [repeat constructor; easy|]. split; [discriminate|]. split.
  - intros i [<-|[]]. auto.
  - intros i. rewrite change_known by exact L. cbn. now rewrite orb_false_r.
Qed.
Lemma advanced_two : forall ts s l, sub_ids s = [l; S l] ->
  known_at ts l = false -> simp_at ts l = false -> known_at ts (S l) = false -> simp_at ts (S l) = false -> (S l < length ts)%nat ->
  advanced ts (change set_known l (change set_known (S l) ts)) s.
Proof.
  intros ts s l I K Sp K' Sp' L. unfold advanced. rewrite I. split; [now rewrite !change_known_exp|].
  split; [repeat constructor; cbn; lia|]. split; [discriminate|]. split.
  - intros i [<-|[<-|[]]]; repeat split; auto; lia.
  - intros i. rewrite change_known by (rewrite change_len; lia). rewrite change_known by exact L. cbn. rewrite orb_false_r, <- orb_assoc.
    f_equal. apply orb_comm.
Qed.

Lemma try_valid : forall d p0 p1 ts, trySolve d p0 p1 ts <> Invalid.
Proof.
  intros d p0 p1 ts. unfold trySolve. set (u := count _ ts).
  destruct (Nat.eqb u 0 || Nat.ltb 2 u) eqn:U; [discriminate|]. apply orb_false_iff in U. destruct U as [U0 U2].
  apply Nat.eqb_neq in U0. apply Nat.ltb_ge in U2.
  destruct (filter_one unknownNotSimplifiedTerm ts) as (l & F); [fold u; lia|]. rewrite F.
  destruct (Nat.eqb u 1) eqn:U1.
  - destruct (Nat.eqb d 0).
    + destruct (_ && _); [discriminate|]. destruct (is_translation _); discriminate.
    + destruct (Nat.eqb d 1); [|discriminate]. destruct (existsb _ _); [discriminate|].
      destruct (_ && _); [discriminate|]. destruct (is_translation _); discriminate.
  - apply Nat.eqb_neq in U1. assert (C : count unknownNotSimplifiedTerm (firstn l ts) = (u - 1)%nat) by (apply count_split; [fold u; lia|exact F]).
    destruct l as [|l]; [cbn in C; lia|].
    destruct (find_last_some _ _ _ F) as (t & A & _). pose proof (some_len _ _ _ A) as L.
    destruct (nth_error_at ts l ltac:(lia)) as (t0 & N & _). rewrite N.
    destruct (negb _); [discriminate|]. destruct (Nat.eqb d 0); [|discriminate].
    match goal with |- context [match ?x with Some _ => _ | None => _ end] => destruct x end; [discriminate|].
    destruct (_ && _); [discriminate|]. destruct (_ && _); discriminate.
Qed.

Lemma try_solved : forall d p0 p1 ts s ts', trySolve d p0 p1 ts = Solved s ts' ->
  accepted (map t_exp ts) s /\ advanced ts ts' s.
Proof.
  intros d p0 p1 ts s ts'. unfold trySolve. set (u := count _ ts).
  destruct (Nat.eqb u 0 || Nat.ltb 2 u) eqn:U; [discriminate|].
  destruct (find_last unknownNotSimplifiedTerm ts) as [l|] eqn:F; [|discriminate].
  destruct (find_last_some _ _ _ F) as (t & A & B & _). destruct (uns_at _ _ _ A B) as (K & Sp & L).
  pose proof (nth_error_exp ts l L) as NL.
  destruct (Nat.eqb u 1) eqn:U1.
  - destruct (Nat.eqb d 0).
    + destruct (is_rotation (exp_at ts l) && negb (liesOnAxis (exp_at ts l) p0)) eqn:Q.
      * intros [= <- <-]. apply andb_true_iff in Q. destruct Q as [Q1 Q2]. apply negb_true_iff in Q2.
        split; [|apply advanced_one; auto]. cbn. rewrite <- rot_spec, <- lies_false. auto.
      * destruct (is_translation (exp_at ts l)) eqn:Q'; [|discriminate]. intros [= <- <-].
        split; [|apply advanced_one; auto]. cbn. rewrite <- trans_spec. auto.
    + destruct (Nat.eqb d 1); [|discriminate]. destruct (existsb _ _); [discriminate|].
      destruct (is_rotation (exp_at ts l) && negb (liesOnAxis (exp_at ts l) p0) && negb (liesOnAxis (exp_at ts l) p1)) eqn:Q.
      * intros [= <- <-]. apply andb_true_iff in Q. destruct Q as [Q Q3]. apply andb_true_iff in Q. destruct Q as [Q1 Q2].
        apply negb_true_iff in Q2, Q3. split; [|apply advanced_one; auto]. cbn. rewrite <- rot_spec, <- !lies_false. auto.
      * destruct (is_translation (exp_at ts l)) eqn:Q'; [|discriminate]. intros [= <- <-].
        split; [|apply advanced_one; auto]. cbn. rewrite <- trans_spec. auto.
  - destruct l as [|l]; [discriminate|]. destruct (nth_error ts l) as [t0|] eqn:N0; [|discriminate].
    destruct (unknownNotSimplifiedTerm t0) eqn:B0; [|discriminate]. cbn [negb].
    destruct (uns_at _ _ _ N0 B0) as (K0 & Sp0 & L0). pose proof (nth_error_exp ts l L0) as NL0.
    destruct (Nat.eqb d 0); [|discriminate].
    set (e := exp_at ts (S l)) in *. set (e0 := exp_at ts l) in *.
    destruct (is_rotation e) eqn:R1; [rewrite (proj2 (negb_false_iff _) R1 : is_translation e = false)|].
    + destruct (is_rotation e0) eqn:R0; cbn.
      * apply rot_spec in R1, R0. destruct (parallelAxes e e0) eqn:Pr; cbn.
        -- destruct (colinearAxes e e0) eqn:Co; [discriminate|]. intros [= <- <-].
           unfold colinearAxes in Co. rewrite Pr in Co. cbn in Co. apply lies_false in Co. apply parallel_spec in Pr.
           split; [cbn; auto 10|apply advanced_two; auto].
        -- destruct (intersectingAxes e e0) as [r|] eqn:I; [|discriminate]. intros [= <- <-].
           apply parallel_false in Pr. destruct (intersect_spec _ _ _ I) as (t1 & s1 & I1 & I2).
           split; [cbn; do 6 (split; [auto|]); exists s1, t1; auto|apply advanced_two; auto].
      * discriminate.
    + cbn. assert (T1 : is_translation e = true) by (unfold is_translation; now rewrite R1). rewrite T1.
      destruct (is_translation e0) eqn:T0; [|discriminate]. destruct (parallelAxes e e0) eqn:Pr; [discriminate|].
      intros [= <- <-]. apply trans_spec in T1, T0. apply parallel_false in Pr.
      split; [cbn; auto 10|apply advanced_two; auto].
Qed.

(** ** The loop *)
Local Arguments known_at : simpl never.
Local Arguments simp_at : simpl never.
Local Arguments accepted : simpl never.
Lemma NoDup_app : forall {A} (l1 l2 : list A), NoDup l1 -> NoDup l2 -> (forall x, In x l1 -> ~ In x l2) -> NoDup (l1 ++ l2).
Proof.
  induction l1 as [|x l1 IH]; cbn; intros l2 N1 N2 D; [exact N2|]. inversion N1 as [|? ? Nx N1']; subst.
  constructor; [|apply IH; auto]. rewrite in_app_iff. intros [I|I]; [contradiction|]. exact (D x (or_introl eq_refl) I).
Qed.

Section Search.
Variable es : list mexp.
Variable pts : list vec.

Definition inv (st : search_state) : Prop :=
  map t_exp (sr_terms st) = es /\
  NoDup (concat (map sub_ids (sr_steps st))) /\
  (forall i, In i (concat (map sub_ids (sr_steps st))) <-> known_at (sr_terms st) i = true) /\
  Forall (accepted es) (sr_steps st).

Lemma body_defined : forall st, exists st', search_body pts st = Some st'.
Proof.
  intros st. unfold search_body.
  destruct (trySolve _ _ _ _) eqn:T; [eauto|eauto|]. now apply try_valid in T.
Qed.

Lemma advance_terms : forall st, sr_terms (advance pts st) = sr_terms st /\ sr_steps (advance pts st) = sr_steps st.
Proof.
  intros st. unfold advance. destruct (Nat.eqb _ _); [|auto]. destruct (Nat.eqb _ _); [auto|]. destruct (Nat.eqb _ _); auto.
Qed.

Lemma inv_body : forall st st', inv st -> search_body pts st = Some st' -> inv st'.
Proof.
  intros st st' (X & ND & KN & AC). unfold search_body.
  set (ts := simplify _ _ _ (refresh (sr_terms st))).
  assert (SM : same_terms (sr_terms st) ts) by (eapply same_trans; [apply refresh_same|apply simplify_same]).
  destruct (trySolve _ _ _ ts) as [s ts'| |] eqn:T; intros [= <-].
  - destruct (try_solved _ _ _ _ _ _ T) as (Ac & (X' & ND' & NE & US & KN')).
    pose proof (proj1 SM) as SX.
    unfold inv. cbn. rewrite map_app, concat_app. cbn. rewrite app_nil_r. split; [congruence|]. split; [|split].
    + apply NoDup_app; [exact ND|exact ND'|]. intros i I J. apply KN in I. destruct (US i J) as (Q & _).
      rewrite (same_known _ _ _ SM) in Q. congruence.
    + intros i. rewrite in_app_iff, KN, KN', orb_true_iff, (same_known _ _ _ SM), existsb_exists. split.
      * intros [I|I]; [now left|right]. exists i. split; [exact I|apply Nat.eqb_refl].
      * intros [I|(j & I & Q)]; [now left|right]. apply Nat.eqb_eq in Q. now subst.
    + apply Forall_app. split; [exact AC|]. constructor; [|constructor]. rewrite <- X, <- SX. exact Ac.
  - unfold inv. destruct (advance_terms (Sr (sr_i0 st) (sr_i1 st) (sr_p0 st) (sr_p1 st) (sr_depth st) ts (sr_steps st))) as [-> ->]. cbn.
    split; [destruct SM; congruence|]. split; [exact ND|]. split; [|exact AC].
    intros i. rewrite (same_known _ _ _ SM). apply KN.
Qed.

Lemma inv_loop : forall fuel st st', inv st -> search_loop fuel pts st = Returns st' -> inv st'.
Proof.
  induction fuel as [|fuel IH]; cbn; intros st st' I; [discriminate|].
  destruct (search_body pts st) as [st1|] eqn:B; [|discriminate]. pose proof (inv_body _ _ I B) as I1.
  destruct (_ && _); [apply IH; exact I1|]. now intros [= <-].
Qed.

Definition start : search_state :=
  Sr 0 0 (nth 0 pts vzero) (nth 0 pts vzero) 0 (map (fun e => PT e false false) es) [].
Lemma inv_start : inv start.
Proof.
  unfold inv. cbn. rewrite map_map, map_id. split; [reflexivity|]. split; [constructor|]. split; [|constructor].
  intros i. split; [easy|]. unfold known_at. rewrite map_map. cbn. intros H.
  clear -H. revert i H. induction es as [|e l IH]; intros [|i] H; cbn in H; try discriminate. exact (IH i H).
Qed.

Lemma count_all : forall ts, count t_known ts = length ts -> forall i, (i < length ts)%nat -> known_at ts i = true.
Proof.
  induction ts as [|t ts IH]; intros C i L; [cbn in L; lia|]. unfold count in *. cbn in C, L.
  assert (Q : (length (filter t_known ts) <= length ts)%nat) by (clear; induction ts as [|u l IH]; cbn; [lia|destruct (t_known u); cbn; lia]).
  destruct (t_known t) eqn:K; cbn in C; [|lia]. destruct i as [|i]; [exact K|]. apply (IH ltac:(lia) i). lia.
Qed.

Lemma search_complete : forall fuel ts ss, searchSolutions fuel pts es = Returns (ts, ss) -> count t_known ts = length es ->
  Permutation (concat (map sub_ids ss)) (seq 0 (length es)) /\ Forall (accepted es) ss.
Proof.
  intros fuel ts ss. unfold searchSolutions. fold start. destruct (search_loop fuel pts start) as [st| |] eqn:Lp; [|discriminate|discriminate].
  intros [= <- <-] C. destruct (inv_loop _ _ _ inv_start Lp) as (X & ND & KN & AC). split; [|exact AC].
  assert (LL : length (sr_terms st) = length es) by (rewrite <- X; now rewrite map_length).
  apply NoDup_Permutation; [exact ND|apply seq_NoDup|]. intros i. rewrite KN, in_seq. split.
  - intros K. apply known_at_len in K. lia.
  - intros L. apply count_all; lia.
Qed.
End Search.
