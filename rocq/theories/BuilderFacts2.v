(** Proofs about the search of subproblems: it ends, and its steps are justified. *)
From Coq Require Import Reals List Bool Arith Lia Lra Permutation.
From Verif Require Import Kdl KdlFacts Screw ScrewFacts Trig Subproblems IkProblem Builder BuilderSpec BuilderFacts.
Import ListNotations.
Open Scope R_scope.
Local Notation S := Datatypes.S.
Local Arguments known_at : simpl never.
Local Arguments simp_at : simpl never.
Local Arguments accepted : simpl never.
Local Arguments justified : simpl never.

(** ** The search ends *)
Section Ends.
Variable pts : list vec.
Let P := length pts.
Hypothesis NE : pts <> [].

Definition wf (st : search_state) : Prop :=
  (sr_i0 st < P)%nat /\ (sr_i1 st < P)%nat /\ (sr_depth st = 0%nat /\ sr_i1 st = 0%nat \/ sr_depth st = 1%nat).
Definition left_over (st : search_state) : nat :=
  if Nat.eqb (sr_depth st) 0 then (P - sr_i0 st + P * P)%nat else (P - sr_i0 st + P * (P - 1 - sr_i1 st))%nat.
Definition sweep : nat := (P + P * P)%nat.
Definition todo (st : search_state) : nat := (left_over st + count unknownTerm (sr_terms st) * sweep)%nat.

Lemma P_pos : (0 < P)%nat.
Proof. unfold P. destruct pts; [contradiction|cbn; lia]. Qed.

Lemma advance_progress : forall st, wf st ->
  sr_depth (advance pts st) = 2%nat \/ wf (advance pts st) /\ (left_over (advance pts st) < left_over st)%nat.
Proof.
  intros st (A & B & C). unfold advance. fold P. pose proof P_pos as PP.
  destruct (Nat.eqb (S (sr_i0 st)) P) eqn:E0.
  - apply Nat.eqb_eq in E0. destruct (Nat.eqb (sr_depth st) 0) eqn:D0.
    + right. apply Nat.eqb_eq in D0. destruct C as [[_ C]|C]; [|congruence].
      split; [unfold wf; cbn; repeat split; try lia|]. unfold left_over. cbn. rewrite D0, C. cbn.
      replace (P - sr_i0 st)%nat with 1%nat by lia. destruct P as [|q]; [lia|]. cbn. rewrite !Nat.sub_0_r. nia.
    + apply Nat.eqb_neq in D0. destruct C as [[C _]|C]; [congruence|].
      destruct (Nat.eqb (S (sr_i1 st)) P) eqn:E1.
      * left. cbn. rewrite C. reflexivity.
      * right. apply Nat.eqb_neq in E1. split; [unfold wf; cbn; repeat split; try lia|].
        unfold left_over. cbn [sr_depth sr_i0 sr_i1]. rewrite C. cbn [Nat.eqb].
        replace (P - sr_i0 st)%nat with 1%nat by lia.
        replace (P - 1 - sr_i1 st)%nat with (S (P - 1 - S (sr_i1 st)))%nat by lia. nia.
  - right. apply Nat.eqb_neq in E0. split; [unfold wf; cbn; repeat split; try lia|].
    unfold left_over. cbn. destruct (Nat.eqb (sr_depth st) 0); lia.
Qed.

Lemma count_known_unknown : forall ts, (count unknownTerm ts + count t_known ts)%nat = length ts.
Proof.
  unfold count, unknownTerm. induction ts as [|t ts IH]; cbn; [reflexivity|]. destruct (t_known t); cbn; lia.
Qed.
Lemma count_map : forall ts ts', map t_known ts = map t_known ts' -> count unknownTerm ts = count unknownTerm ts'.
Proof.
  unfold count, unknownTerm. induction ts as [|t ts IH]; intros [|t' ts'] H; cbn in *; try discriminate; [reflexivity|].
  injection H as H1 H2. rewrite H1. destruct (t_known t'); cbn; rewrite (IH ts' H2); reflexivity.
Qed.
Lemma count_less : forall ts ts' i, (forall j, known_at ts j = true -> known_at ts' j = true) -> length ts' = length ts ->
  known_at ts i = false -> known_at ts' i = true -> (count unknownTerm ts' < count unknownTerm ts)%nat.
Proof.
  unfold count, unknownTerm.
  assert (LE : forall ts ts', (forall j, known_at ts j = true -> known_at ts' j = true) -> length ts' = length ts ->
    (length (filter (fun t => negb (t_known t)) ts') <= length (filter (fun t => negb (t_known t)) ts))%nat).
  { induction ts as [|t ts IH]; intros [|t' ts'] H L; cbn in *; try discriminate; [lia|].
    assert (Q := IH ts' (fun j => H (S j)) ltac:(lia)). pose proof (H 0%nat) as H0. unfold known_at in H0. cbn in H0.
    destruct (t_known t), (t_known t'); cbn; try lia; specialize (H0 eq_refl); discriminate. }
  induction ts as [|t ts IH]; intros [|t' ts'] i H L K K'; cbn in L; try discriminate.
  - unfold known_at in K'. cbn in K'. destruct i; discriminate.
  - pose proof (H 0%nat) as H0. unfold known_at in H0. cbn in H0. cbn. destruct i as [|i].
    + unfold known_at in K, K'. cbn in K, K'. rewrite K, K'. cbn.
      pose proof (LE ts ts' (fun j => H (S j)) ltac:(lia)). lia.
    + assert (Q := IH ts' i (fun j => H (S j)) ltac:(lia) K K').
      destruct (t_known t), (t_known t'); cbn; try lia; specialize (H0 eq_refl); discriminate.
Qed.

Lemma body_progress : forall st st', wf st -> search_body pts st = Some st' ->
  sr_depth st' = 2%nat \/ wf st' /\ (todo st' < todo st)%nat.
Proof.
  intros st st' W. unfold search_body. set (ts := simplify _ _ _ (refresh (sr_terms st))).
  assert (SM : same_terms (sr_terms st) ts) by (eapply same_trans; [apply refresh_same|apply simplify_same]).
  assert (CM : count unknownTerm ts = count unknownTerm (sr_terms st)) by (apply count_map, SM).
  destruct (trySolve _ _ _ ts) as [s ts'| |] eqn:T; intros [= <-].
  - right. destruct (try_solved _ _ _ _ _ _ T) as (_ & (X' & _ & NEi & US & KN')).
    pose proof P_pos as PP. split; [unfold wf, P in *; cbn; lia|].
    assert (CL : (count unknownTerm ts' < count unknownTerm ts)%nat).
    { destruct (sub_ids s) as [|i l]; [contradiction|]. destruct (US i (or_introl eq_refl)) as (K & _ & L).
      apply count_less with i; [| |exact K|].
      - intros j Q. rewrite KN', Q. reflexivity.
      - rewrite <- (map_length t_exp ts'), X'. apply map_length.
      - rewrite KN'. cbn. now rewrite Nat.eqb_refl, orb_true_r. }
    unfold todo, left_over. cbn [sr_depth sr_i0 sr_terms Nat.eqb]. rewrite <- CM. fold sweep.
    assert (LO : (0 < if Nat.eqb (sr_depth st) 0 then P - sr_i0 st + P * P else P - sr_i0 st + P * (P - 1 - sr_i1 st))%nat).
    { destruct W as (A & _). destruct (Nat.eqb _ _); apply Nat.add_pos_l; lia. }
    replace (P - 0 + P * P)%nat with sweep by (unfold sweep; lia). nia.
  - set (st1 := Sr _ _ _ _ _ ts _). assert (W1 : wf st1) by exact W.
    destruct (advance_progress st1 W1) as [D|[W' LT]]; [now left|right]. split; [exact W'|].
    unfold todo. destruct (advance_terms pts st1) as [-> _]. change (left_over st1) with (left_over st) in LT.
    unfold st1. cbn [sr_terms]. rewrite CM. apply Nat.add_lt_mono_r. exact LT.
Qed.

Lemma loop_ends : forall fuel st, wf st -> (todo st <= fuel)%nat -> exists st', search_loop fuel pts st = Returns st'.
Proof.
  induction fuel as [|fuel IH]; intros st W L.
  - exfalso. assert (Q : (0 < todo st)%nat); [|lia]. unfold todo. apply Nat.add_pos_l. unfold left_over. destruct W as (A & _).
    destruct (Nat.eqb _ _); apply Nat.add_pos_l; lia.
  - cbn. destruct (body_defined pts st) as (st' & B). rewrite B.
    destruct (body_progress st st' W B) as [D|[W' LT]].
    + rewrite D. cbn. eauto.
    + destruct (_ && _); [apply IH; [exact W'|lia]|eauto].
Qed.

Lemma search_ends : forall fuel es, ((length es + 1) * (P + P * P) <= fuel)%nat ->
  exists r, searchSolutions fuel pts es = Returns r.
Proof.
  intros fuel es L. unfold searchSolutions. change (Sr _ _ _ _ _ _ _) with (start es pts).
  destruct (loop_ends fuel (start es pts)) as (st & ->); [|  |eauto].
  - pose proof P_pos as PP. unfold wf, P in *. cbn. lia.
  - unfold todo, left_over. cbn [sr_depth sr_i0 sr_terms start Nat.eqb].
    assert (C : count unknownTerm (map (fun e => PT e false false) es) = length es).
    { unfold count, unknownTerm. clear. induction es as [|e l IH]; cbn; [reflexivity|now rewrite IH]. }
    rewrite C. unfold sweep. nia.
Qed.
End Ends.

Lemma rev_exps_len : forall p, length (exps (reverseSelf p)) = length (exps p).
Proof. intros. unfold reverseSelf. cbn. now rewrite rev_length, map_length. Qed.

Theorem build_total : forall fuel pts pts' p, pts <> [] -> pts' <> [] ->
  let n := length (exps p) in
  ((n + 1) * (length pts + length pts * length pts) <= fuel)%nat ->
  ((n + 1) * (length pts' + length pts' * length pts') <= fuel)%nat ->
  exists r, build_with fuel (Some pts) (Some pts') p = Returns r.
Proof.
  intros fuel pts pts' p NE NE' n L L'. unfold build_with. cbn [option_map].
  destruct (search_ends pts NE fuel (exps p) L) as ([ts ss] & ->).
  destruct (Nat.eqb _ _); [eauto|].
  destruct (search_ends pts' NE' fuel (exps (reverseSelf p))) as ([ts' ss'] & ->).
  - now rewrite rev_exps_len.
  - destruct (Nat.eqb _ _); eauto.
Qed.

Theorem build_complete : forall fuel pts pts' p p' ss rev,
  build_with fuel pts pts' p = Returns (Some (p', ss, rev)) ->
  p' = (if rev then reverseSelf p else p) /\
  Permutation (concat (map sub_ids ss)) (seq 0 (length (exps p))) /\ Forall (accepted (exps p')) ss.
Proof.
  intros fuel pts pts' p p' ss rev. unfold build_with. destruct pts as [pts|]; [|discriminate]. cbn [option_map].
  destruct (searchSolutions fuel pts (exps p)) as [[ts s1]| |] eqn:S1; [|discriminate|discriminate].
  destruct (Nat.eqb _ _) eqn:C1.
  - intros [= <- <- <-]. apply Nat.eqb_eq in C1. split; [reflexivity|]. eapply search_complete; eassumption.
  - destruct pts' as [pts'|]; [|discriminate]. cbn [option_map].
    destruct (searchSolutions fuel pts' (exps (reverseSelf p))) as [[ts' s2]| |] eqn:S2; [|discriminate|discriminate].
    destruct (Nat.eqb (count t_known ts') _) eqn:C2; [|discriminate].
    intros [= <- <- <-]. apply Nat.eqb_eq in C2. split; [reflexivity|].
    destruct (search_complete _ _ _ _ _ S2 C2) as [A B]. rewrite rev_exps_len in A. auto.
Qed.

(** ** What the simplification marks mean *)
Lemma mark_leading_simp : forall ts i, simp_at (mark_leading ts) i = true ->
  simp_at ts i = true \/ forall j, (j <= i)%nat -> known_at ts j = true.
Proof.
  induction ts as [|t ts IH]; intros i H; [now left|]. cbn in H. destruct (t_known t) eqn:K; [|now left].
  destruct i as [|i].
  - right. intros j L. replace j with 0%nat by lia. exact K.
  - destruct (IH i H) as [A|A]; [now left|right]. intros [|j] L; [exact K|]. apply A. lia.
Qed.
Lemma rev_at : forall {A} (g : pterm -> A) d ts i, (i < length ts)%nat ->
  nth i (map g (rev ts)) d = nth (length ts - 1 - i) (map g ts) d.
Proof.
  intros A g d ts i L. rewrite map_rev, rev_nth by now rewrite map_length. rewrite map_length. f_equal. lia.
Qed.
Lemma refresh_simp : forall ts i, simp_at (refresh ts) i = true ->
  (forall j, (j <= i)%nat -> known_at ts j = true) \/ (forall j, (i <= j < length ts)%nat -> known_at ts j = true).
Proof.
  intros ts i H. pose proof (simp_at_len _ _ H) as L. rewrite (same_len _ _ (refresh_same ts)) in L.
  unfold refresh in H. set (u := map _ ts) in H.
  assert (LU : length u = length ts) by (unfold u; apply map_length).
  assert (KU : forall j, known_at u j = known_at ts j) by (intros j; unfold known_at, u; now rewrite map_map).
  assert (SU : forall j, simp_at u j = false).
  { intros j. unfold simp_at, u. rewrite map_map. cbn. clear. revert j. induction ts as [|t ts IH]; intros [|j]; cbn; auto. }
  set (v := mark_leading u) in H.
  assert (SV : same_terms u v) by apply mark_leading_same.
  assert (LV : length v = length ts) by (rewrite (same_len _ _ SV); exact LU).
  pose proof (mark_leading_same (rev v)) as SW. pose proof (same_len _ _ SW) as LW. rewrite rev_length in LW.
  unfold simp_at in H. rewrite rev_at in H by lia. rewrite LW, LV in H.
  destruct (mark_leading_simp _ _ H) as [A|A].
  - unfold simp_at in A. rewrite rev_at in A by lia. rewrite LV in A. replace (length ts - 1 - (length ts - 1 - i))%nat with i in A by lia.
    destruct (mark_leading_simp u i A) as [B|B]; [rewrite SU in B; discriminate|]. left. intros j Lj. rewrite <- KU. now apply B.
  - right. intros j Lj. specialize (A (length ts - 1 - j)%nat ltac:(lia)). unfold known_at in A. rewrite rev_at in A by lia.
    rewrite LV in A. replace (length ts - 1 - (length ts - 1 - j))%nat with j in A by lia.
    change (known_at v j = true) in A. rewrite (same_known _ _ j SV), KU in A. exact A.
Qed.

Lemma simp_left_spec : forall n p ts, (n <= length ts)%nat -> exists m, (m <= n)%nat /\
  (forall i, simp_at (simp_left n p ts) i = simp_at ts i || (Nat.leb m i && Nat.ltb i n)) /\
  (forall i, (m <= i < n)%nat -> is_rotation (exp_at ts i) = true /\ liesOnAxis (exp_at ts i) p = true).
Proof.
  induction n as [|n IH]; intros p ts L.
  - exists 0%nat. split; [lia|]. split; [|lia]. intros i. cbn. now rewrite orb_false_r.
  - cbn [simp_left]. destruct (is_rotation (exp_at ts n) && liesOnAxis (exp_at ts n) p) eqn:Q.
    + apply andb_true_iff in Q. destruct (IH p (change set_simp n ts)) as (m & M & A & B); [rewrite change_len; lia|].
      exists m. split; [lia|]. split.
      * intros i. rewrite A, change_simp by lia. rewrite <- orb_assoc. f_equal.
        destruct (Nat.eqb_spec i n), (Nat.leb_spec m i), (Nat.ltb_spec i n), (Nat.ltb_spec i (S n)); cbn; try reflexivity; lia.
      * intros i I. destruct (Nat.eq_dec i n) as [->|NE]; [exact Q|].
        destruct (B i ltac:(lia)) as [B1 B2]. rewrite (same_exp _ _ i (change_same n ts)) in B1, B2. auto.
    + exists (S n). split; [lia|]. split; [|lia]. intros i.
      destruct (Nat.leb_spec (S n) i), (Nat.ltb_spec i (S n)); cbn; try lia; now rewrite orb_false_r.
Qed.
Lemma simp_right_spec : forall k a p ts, (a + k <= length ts)%nat -> exists m, (m <= k)%nat /\
  (forall i, simp_at (simp_right k a p ts) i = simp_at ts i || (Nat.leb a i && Nat.ltb i (a + m))) /\
  (forall i, (a <= i < a + m)%nat -> is_rotation (exp_at ts i) = true /\ liesOnAxis (exp_at ts i) p = true).
Proof.
  induction k as [|k IH]; intros a p ts L.
  - exists 0%nat. split; [lia|]. split; [|lia]. intros i. cbn [simp_right].
    destruct (Nat.leb_spec a i), (Nat.ltb_spec i (a + 0)); cbn; try lia; rewrite ?orb_false_r; try reflexivity.
  - cbn [simp_right]. destruct (is_rotation (exp_at ts a) && liesOnAxis (exp_at ts a) p) eqn:Q.
    + apply andb_true_iff in Q. destruct (IH (S a) p (change set_simp a ts)) as (m & M & A & B); [rewrite change_len; lia|].
      exists (S m). split; [lia|]. split.
      * intros i. rewrite A, change_simp by lia. rewrite <- orb_assoc. f_equal.
        destruct (Nat.eqb_spec i a), (Nat.leb_spec (S a) i), (Nat.leb_spec a i), (Nat.ltb_spec i (S a + m)), (Nat.ltb_spec i (a + S m)); cbn; try reflexivity; lia.
      * intros i I. destruct (Nat.eq_dec i a) as [->|NE]; [exact Q|].
        destruct (B i ltac:(lia)) as [B1 B2]. rewrite (same_exp _ _ i (change_same a ts)) in B1, B2. auto.
    + exists 0%nat. split; [lia|]. split; [|lia]. intros i.
      destruct (Nat.leb_spec a i), (Nat.ltb_spec i (a + 0)); cbn; try lia; now rewrite orb_false_r.
Qed.

Lemma holds_at : forall ts i p, (i < length ts)%nat -> is_rotation (exp_at ts i) = true -> liesOnAxis (exp_at ts i) p = true ->
  holds (map t_exp ts) i p.
Proof.
  intros ts i p L A B. exists (exp_at ts i). split; [now apply nth_error_exp|]. split; [now apply rot_spec|now apply lies_spec].
Qed.

(** marks after simplifying with one point: runs of known terms at both ends, and the terms
    from [m] to the last unknown one, which fix the point *)
Lemma pk1_marks : forall p ts0, exists m l, let ts := simplifyPK1 p (refresh ts0) in
  (forall i, (l < i)%nat -> (i < length ts0)%nat -> known_at ts0 i = true) /\
  (forall i, simp_at ts i = true ->
     (forall j, (j <= i)%nat -> known_at ts0 j = true) \/ (forall j, (i <= j < length ts0)%nat -> known_at ts0 j = true) \/ (m <= i <= l)%nat) /\
  (forall i, (m <= i <= l)%nat -> (i < length ts0)%nat -> simp_at ts i = true /\ holds (map t_exp ts0) i p).
Proof.
  intros p ts0. pose proof (refresh_same ts0) as SR. pose proof (same_len _ _ SR) as LR.
  unfold simplifyPK1. destruct (find_last unknownTerm (refresh ts0)) as [l|] eqn:F.
  - destruct (find_last_some _ _ _ F) as (t & N & U & La). pose proof (some_len _ _ _ N) as LL.
    destruct (simp_left_spec (S l) p (refresh ts0) ltac:(lia)) as (m & M & A & B).
    exists m, l. cbn zeta. split; [|split].
    + intros i I J. destruct (nth_error_at (refresh ts0) i ltac:(lia)) as (t' & N' & _ & K' & _).
      specialize (La i t' I N'). unfold unknownTerm in La. apply negb_false_iff in La. rewrite K', (same_known _ _ i SR) in La. exact La.
    + intros i H. rewrite A in H. apply orb_true_iff in H. destruct H as [H|H].
      * destruct (refresh_simp ts0 i H); auto.
      * apply andb_true_iff in H. destruct H as [H1 H2]. apply Nat.leb_le in H1. apply Nat.ltb_lt in H2. right; right; lia.
    + intros i I J. split.
      * rewrite A. rewrite (proj2 (Nat.leb_le m i)), (proj2 (Nat.ltb_lt i (S l))) by lia. now rewrite orb_true_r.
      * destruct (B i ltac:(lia)) as [B1 B2]. rewrite (same_exp _ _ i SR) in B1, B2. apply holds_at; [exact J|exact B1|exact B2].
  - exists 1%nat, 0%nat. cbn zeta. split; [|split].
    + intros i I J. destruct (nth_error_at (refresh ts0) i ltac:(lia)) as (t' & N' & _ & K' & _).
      pose proof (find_last_none _ _ F t' (nth_error_In _ _ N')) as La. unfold unknownTerm in La. apply negb_false_iff in La.
      rewrite K', (same_known _ _ i SR) in La. exact La.
    + intros i H. destruct (refresh_simp ts0 i H); auto.
    + intros i I. lia.
Qed.

(** ** The terms that an attempt leaves out *)
Lemma count_zero : forall f ts, count f ts = 0%nat -> forall i t, nth_error ts i = Some t -> f t = false.
Proof.
  unfold count. intros f ts C i t N. destruct (f t) eqn:Q; [|reflexivity]. exfalso.
  assert (I : In t (filter f ts)) by (apply filter_In; split; [eapply nth_error_In; eassumption|exact Q]).
  destruct (filter f ts); [easy|discriminate].
Qed.
Lemma nth_firstn : forall {A} (l : list A) k i, (i < k)%nat -> nth_error (firstn k l) i = nth_error l i.
Proof.
  intros A l k. revert l. induction k as [|k IH]; intros l i L; [lia|]. destruct l as [|x l]; [reflexivity|].
  destruct i as [|i]; [reflexivity|]. cbn. apply IH. lia.
Qed.
Lemma firstn_S : forall {A} (l : list A) k x, nth_error l k = Some x -> firstn (S k) l = firstn k l ++ [x].
Proof.
  intros A l. induction l as [|y l IH]; intros [|k] x N; try discriminate; cbn in N.
  - now injection N as ->.
  - change (firstn (S (S k)) (y :: l)) with (y :: firstn (S k) l). now rewrite (IH k x N).
Qed.
Definition done_at (ts : list pterm) (i : nat) : Prop := known_at ts i = true \/ simp_at ts i = true.
Lemma not_uns : forall ts i t, nth_error ts i = Some t -> unknownNotSimplifiedTerm t = false -> done_at ts i.
Proof.
  intros ts i t N U. pose proof (some_len _ _ _ N) as L. destruct (nth_error_at ts i L) as (t' & A & _ & B & C).
  rewrite N in A. injection A as <-. unfold unknownNotSimplifiedTerm in U. rewrite B, C in U. unfold done_at.
  destruct (known_at ts i), (simp_at ts i); auto; discriminate.
Qed.

(** first and last term, and first point *)
Definition sub_span (s : sub) : nat * nat * vec :=
  match s with
  | SPK1 id _ p | SPG1 id _ p | SPK3 id _ p _ | SPG3 id _ p _ => (id, id, p)
  | SPK2 a b _ _ p _ | SPG2 a b _ _ p | SPG4 a b _ _ p => (a, b, p)
  end.

Lemma try_rest : forall d p0 p1 ts s ts', trySolve d p0 p1 ts = Solved s ts' ->
  (d = 0%nat /\ ~ two_points s /\ exists f l, sub_span s = (f, l, p0) /\ (f <= l < length ts)%nat /\
     known_at ts f = false /\ simp_at ts f = false /\ known_at ts l = false /\ simp_at ts l = false /\
     forall i, (i < length ts)%nat -> (i < f \/ l < i)%nat -> done_at ts i) \/
  (d = 1%nat /\ exists l e, (s = SPK3 l e p0 p1 \/ s = SPG3 l e p0 p1) /\ (l < length ts)%nat /\
     known_at ts l = false /\ simp_at ts l = false /\
     forall i, (i < length ts)%nat -> i <> l -> simp_at ts i = true).
Proof.
  intros d p0 p1 ts s ts'. unfold trySolve. set (u := count _ ts).
  destruct (Nat.eqb u 0 || Nat.ltb 2 u) eqn:U; [discriminate|]. apply orb_false_iff in U. destruct U as [U0 U2].
  apply Nat.eqb_neq in U0. apply Nat.ltb_ge in U2.
  destruct (find_last unknownNotSimplifiedTerm ts) as [l|] eqn:F; [|discriminate].
  assert (C : count unknownNotSimplifiedTerm (firstn l ts) = (u - 1)%nat) by (apply count_split; [fold u; lia|exact F]).
  destruct (find_last_some _ _ _ F) as (t & A & B & La). destruct (uns_at _ _ _ A B) as (K & Sp & L).
  assert (RT : forall i, (i < length ts)%nat -> (l < i)%nat -> done_at ts i).
  { intros i I J. destruct (nth_error_at ts i I) as (t' & N & _). eapply not_uns; [exact N|]. exact (La i t' J N). }
  destruct (Nat.eqb u 1) eqn:U1.
  - apply Nat.eqb_eq in U1. rewrite U1 in C. cbn in C.
    assert (LT : forall i, (i < length ts)%nat -> (i < l)%nat -> done_at ts i).
    { intros i I J. destruct (nth_error_at ts i I) as (t' & N & _). eapply not_uns; [exact N|].
      apply (count_zero _ _ C i). rewrite nth_firstn by exact J. exact N. }
    assert (ALL : forall i, (i < length ts)%nat -> i <> l -> done_at ts i).
    { intros i I J. destruct (Nat.lt_ge_cases i l); [now apply LT|]. apply RT; lia. }
    destruct (Nat.eqb_spec d 0) as [D|D].
    + assert (G : exists f l', (l, l, p0) = (f, l', p0) /\ (f <= l' < length ts)%nat /\
         known_at ts f = false /\ simp_at ts f = false /\ known_at ts l' = false /\ simp_at ts l' = false /\
         forall i, (i < length ts)%nat -> (i < f \/ l' < i)%nat -> done_at ts i).
      { exists l, l. split; [reflexivity|]. split; [lia|]. do 4 (split; [assumption|]). intros i I J. apply ALL; lia. }
      destruct (_ && _); [intros [= <- <-]; left; split; [exact D|]; split; [easy|exact G]|].
      destruct (is_translation _); [|discriminate]. intros [= <- <-]; left; split; [exact D|]; split; [easy|exact G].
    + destruct (Nat.eqb_spec d 1) as [D1|D1]; [|discriminate].
      destruct (existsb knownNotSimplifiedTerm ts) eqn:X; [discriminate|].
      assert (SI : forall i, (i < length ts)%nat -> i <> l -> simp_at ts i = true).
      { intros i I J. destruct (ALL i I J) as [Q|Q]; [|exact Q]. destruct (simp_at ts i) eqn:SQ; [reflexivity|].
        exfalso. destruct (nth_error_at ts i I) as (t' & N & _ & K' & S').
        assert (Y : existsb knownNotSimplifiedTerm ts = true); [|congruence].
        apply existsb_exists. exists t'. split; [eapply nth_error_In; eassumption|].
        unfold knownNotSimplifiedTerm. now rewrite K', S', Q, SQ. }
      destruct (_ && _ && _); [intros [= <- <-]; right; split; [exact D1|]; eexists l, _; split; [left; reflexivity|auto]|].
      destruct (is_translation _); [|discriminate].
      intros [= <- <-]; right; split; [exact D1|]; eexists l, _; split; [right; reflexivity|auto].
  - apply Nat.eqb_neq in U1. assert (u = 2%nat) as U3 by lia. rewrite U3 in C. cbn in C.
    destruct l as [|l]; [discriminate|]. destruct (nth_error ts l) as [t0|] eqn:N0; [|discriminate].
    destruct (unknownNotSimplifiedTerm t0) eqn:B0; [|discriminate]. cbn [negb].
    destruct (uns_at _ _ _ N0 B0) as (K0 & Sp0 & L0).
    assert (C0 : count unknownNotSimplifiedTerm (firstn l ts) = 0%nat).
    { rewrite (firstn_S _ _ _ N0) in C. unfold count in *. rewrite filter_app, app_length in C. cbn in C. rewrite B0 in C. cbn in C. lia. }
    assert (LT : forall i, (i < length ts)%nat -> (i < l)%nat -> done_at ts i).
    { intros i I J. destruct (nth_error_at ts i I) as (t' & N & _). eapply not_uns; [exact N|].
      apply (count_zero _ _ C0 i). rewrite nth_firstn by exact J. exact N. }
    destruct (Nat.eqb_spec d 0) as [D|D]; [|discriminate].
    assert (G : exists f l', (l, S l, p0) = (f, l', p0) /\ (f <= l' < length ts)%nat /\
         known_at ts f = false /\ simp_at ts f = false /\ known_at ts l' = false /\ simp_at ts l' = false /\
         forall i, (i < length ts)%nat -> (i < f \/ l' < i)%nat -> done_at ts i).
    { exists l, (S l). split; [reflexivity|]. split; [lia|]. do 4 (split; [assumption|]). intros i I [J|J]; [now apply LT|now apply RT]. }
    match goal with |- context [match ?x with Some _ => _ | None => _ end] => destruct x end;
      [intros [= <- <-]; left; split; [exact D|]; split; [easy|exact G]|].
    destruct (_ && _); [intros [= <- <-]; left; split; [exact D|]; split; [easy|exact G]|].
    destruct (_ && _); [intros [= <- <-]; left; split; [exact D|]; split; [easy|exact G]|discriminate].
Qed.

(** ** The steps are justified *)

Lemma no_translation_exists : forall ts, no_translation (map t_exp ts) -> existsb (fun t => is_translation (t_exp t)) ts = false.
Proof.
  intros ts H. destruct (existsb _ ts) eqn:X; [|reflexivity]. apply existsb_exists in X. destruct X as (t & I & Q).
  unfold no_translation in H. rewrite Forall_forall in H. specialize (H (t_exp t) (in_map t_exp _ _ I)). apply trans_spec in Q. congruence.
Qed.

Lemma step_justified : forall d p0 p1 ts0 s ts' K,
  trySolve d p0 p1 (simplify d p0 p1 (refresh ts0)) = Solved s ts' ->
  (forall i, In i K <-> known_at ts0 i = true) ->
  no_translation (map t_exp ts0) \/ two_points s ->
  justified (map t_exp ts0) K s.
Proof.
  intros d p0 p1 ts0 s ts' K T KK AL.
  set (ts := simplify d p0 p1 (refresh ts0)) in *.
  assert (SM : same_terms ts0 ts) by (eapply same_trans; [apply refresh_same|apply simplify_same]).
  pose proof (same_len _ _ SM) as LEN.
  assert (LE : length (map t_exp ts0) = length ts0) by apply map_length.
  destruct (pk1_marks p0 ts0) as (m & lu & M1 & M2 & M3).
  destruct (try_rest _ _ _ _ _ _ T) as [(D & NT & f & l & SP & FL & Kf & Sf & Kl & Sl & RT)|(D & l & e & SE & LL & Kl & Sl & RT)].
  - destruct AL as [AL|AL]; [|contradiction].
    assert (TS : ts = simplifyPK1 p0 (refresh ts0)).
    { unfold ts, simplify. rewrite D. cbn [Nat.eqb]. rewrite no_translation_exists; [reflexivity|].
      destruct (same_trans _ _ _ (refresh_same ts0) (simplifyPK1_same p0 (refresh ts0))) as [-> _]. exact AL. }
    rewrite <- TS in M2, M3. rewrite (same_known _ _ f SM) in Kf. rewrite (same_known _ _ l SM) in Kl.
    assert (LFT : forall j, (j < f)%nat -> In j K).
    { intros j J. apply KK. destruct (known_at ts0 j) eqn:KJ; [reflexivity|exfalso].
      destruct (RT j ltac:(lia) ltac:(lia)) as [Q|Q]; [rewrite (same_known _ _ _ SM) in Q; congruence|].
      destruct (M2 j Q) as [Z|[Z|Z]].
      - rewrite Z in KJ by lia. discriminate.
      - rewrite (Z f ltac:(lia)) in Kf. discriminate.
      - destruct (Nat.le_gt_cases f lu) as [G|G]; [|rewrite M1 in Kf by lia; discriminate].
        destruct (M3 f ltac:(lia) ltac:(lia)) as [Z1 _]. congruence. }
    assert (RGT : forall j, (l < j < length (map t_exp ts0))%nat -> In j K \/ holds (map t_exp ts0) j p0).
    { intros j J. destruct (known_at ts0 j) eqn:KJ; [left; now apply KK|right].
      destruct (RT j ltac:(lia) ltac:(lia)) as [Q|Q]; [rewrite (same_known _ _ _ SM) in Q; congruence|].
      destruct (M2 j Q) as [Z|[Z|Z]].
      - rewrite Z in KJ by lia. discriminate.
      - rewrite (Z j ltac:(lia)) in KJ. discriminate.
      - apply M3; lia. }
    destruct s; cbn in SP; injection SP as <- <- <-; try (cbn in NT; contradiction); split; assumption.
  - pose proof (same_known _ _ l SM) as KS. rewrite KS in Kl. clear KS.
    assert (TS : ts = simplifyPK3 p1 (simplifyPK1 p0 (refresh ts0))) by (unfold ts, simplify; rewrite D; reflexivity).
    set (t1 := simplifyPK1 p0 (refresh ts0)) in *.
    assert (S1 : same_terms ts0 t1) by (eapply same_trans; [apply refresh_same|apply simplifyPK1_same]).
    pose proof (same_len _ _ S1) as LEN1.
    assert (PK3 : exists a b, (forall i, simp_at ts i = true -> simp_at t1 i = true \/ (a <= i < b)%nat) /\
      (forall i, simp_at t1 i = true -> simp_at ts i = true) /\
      (forall i, (i < a)%nat -> known_at ts0 i = true) /\
      (forall i, (a <= i < b)%nat -> (i < length ts0)%nat -> simp_at ts i = true /\ holds (map t_exp ts0) i p1)).
    { rewrite TS. unfold simplifyPK3. destruct (find_first unknownTerm t1) as [a|] eqn:F.
      - destruct (find_first_some _ _ _ F) as (t & N & _ & FS). pose proof (some_len _ _ _ N) as LA.
        destruct (simp_right_spec (length t1 - a) a p1 t1 ltac:(lia)) as (k & KL & A & B).
        exists a, (a + k)%nat. split; [|split; [|split]].
        + intros i H. rewrite A in H. apply orb_true_iff in H. destruct H as [H|H]; [now left|right].
          apply andb_true_iff in H. destruct H as [H1 H2]. apply Nat.leb_le in H1. apply Nat.ltb_lt in H2. lia.
        + intros i H. rewrite A, H. reflexivity.
        + intros i I. destruct (nth_error_at t1 i ltac:(lia)) as (t' & N' & _ & K' & _). specialize (FS i t' I N').
          unfold unknownTerm in FS. apply negb_false_iff in FS. rewrite K', (same_known _ _ i S1) in FS. exact FS.
        + intros i I J. split.
          * rewrite A, (proj2 (Nat.leb_le a i)), (proj2 (Nat.ltb_lt i (a + k))) by lia. now rewrite orb_true_r.
          * destruct (B i I) as [B1 B2]. rewrite (same_exp _ _ i S1) in B1, B2. apply holds_at; assumption.
      - exists 0%nat, 0%nat. split; [auto|]. split; [auto|]. split; [intros; lia|intros; lia]. }
    destruct PK3 as (a & b & P1 & P2 & P3 & P4).
    assert (NL : ~ (a <= l < b)%nat) by (intros Q; destruct (P4 l Q ltac:(lia)); congruence).
    assert (NL' : ~ (m <= l <= lu)%nat).
    { intros Q. destruct (M3 l Q ltac:(lia)) as [Q1 _]. apply P2 in Q1. congruence. }
    assert (AL' : (a <= l)%nat) by (destruct (Nat.le_gt_cases a l) as [|G]; [assumption|rewrite P3 in Kl by lia; discriminate]).
    assert (LU' : (l <= lu)%nat) by (destruct (Nat.le_gt_cases l lu) as [|G]; [assumption|rewrite M1 in Kl by lia; discriminate]).
    assert (LFT : forall j, (j < l)%nat -> (forall i, (i <= j)%nat -> In i K) \/ holds (map t_exp ts0) j p1).
    { intros j J. pose proof (RT j ltac:(lia) ltac:(lia)) as Q. destruct (P1 j Q) as [Q1|Q1].
      - destruct (M2 j Q1) as [Z|[Z|Z]].
        + left. intros i I. apply KK, Z, I.
        + rewrite (Z l ltac:(lia)) in Kl. discriminate.
        + lia.
      - right. apply P4; lia. }
    assert (RGT : forall j, (l < j < length (map t_exp ts0))%nat ->
      (forall i, (j <= i < length (map t_exp ts0))%nat -> In i K) \/ holds (map t_exp ts0) j p0).
    { intros j J. pose proof (RT j ltac:(lia) ltac:(lia)) as Q. destruct (P1 j Q) as [Q1|Q1]; [|lia].
      destruct (M2 j Q1) as [Z|[Z|Z]].
      - rewrite Z in Kl by lia. discriminate.
      - left. intros i I. apply KK, Z. lia.
      - right. apply M3; lia. }
    destruct SE as [->| ->]; split; assumption.
Qed.

(** every step is justified by the terms that the steps before it determine *)
Definition all_justified (es : list mexp) (ss : list sub) : Prop :=
  forall pre s post, ss = pre ++ s :: post -> no_translation es \/ two_points s ->
    justified es (concat (map sub_ids pre)) s.

Lemma just_body : forall es pts st st', inv es st -> all_justified es (sr_steps st) ->
  search_body pts st = Some st' -> all_justified es (sr_steps st').
Proof.
  intros es pts st st' (X & _ & KN & _) AJ. unfold search_body.
  destruct (trySolve _ _ _ _) as [s ts'| |] eqn:T; intros [= <-].
  - cbn [sr_steps]. intros pre s' post E AL.
    destruct post as [|x post] using rev_ind.
    + apply app_inj_tail in E. destruct E as [<- <-]. rewrite <- X. eapply step_justified; [exact T|exact KN|]. now rewrite X.
    + rewrite app_comm_cons, app_assoc in E. apply app_inj_tail in E. destruct E as [E _]. exact (AJ pre s' post E AL).
  - destruct (advance_terms pts (Sr (sr_i0 st) (sr_i1 st) (sr_p0 st) (sr_p1 st) (sr_depth st)
      (simplify (sr_depth st) (sr_p0 st) (sr_p1 st) (refresh (sr_terms st))) (sr_steps st))) as [_ ->]. exact AJ.
Qed.
Lemma just_loop : forall es pts fuel st st', inv es st -> all_justified es (sr_steps st) ->
  search_loop fuel pts st = Returns st' -> all_justified es (sr_steps st').
Proof.
  induction fuel as [|fuel IH]; cbn; intros st st' I J; [discriminate|].
  destruct (search_body pts st) as [st1|] eqn:B; [|discriminate].
  pose proof (inv_body es pts _ _ I B) as I1. pose proof (just_body es pts _ _ I J B) as J1.
  destruct (_ && _); [now apply IH|]. now intros [= <-].
Qed.
Lemma search_justified : forall es pts fuel ts ss, searchSolutions fuel pts es = Returns (ts, ss) -> all_justified es ss.
Proof.
  intros es pts fuel ts ss. unfold searchSolutions. change (Sr _ _ _ _ _ _ _) with (start es pts).
  destruct (search_loop fuel pts _) as [st| |] eqn:Lp; [|discriminate|discriminate]. intros [= <- <-].
  eapply just_loop; [apply inv_start| |exact Lp]. intros pre s post E. destruct pre; discriminate.
Qed.
Theorem build_justified : forall fuel pts pts' p p' ss rev,
  build_with fuel pts pts' p = Returns (Some (p', ss, rev)) -> all_justified (exps p') ss.
Proof.
  intros fuel pts pts' p p' ss rev. unfold build_with. destruct pts as [pts|]; [|discriminate]. cbn [option_map].
  destruct (searchSolutions fuel pts (exps p)) as [[ts s1]| |] eqn:S1; [|discriminate|discriminate].
  destruct (Nat.eqb _ _).
  - intros [= <- <- <-]. eapply search_justified; eassumption.
  - destruct pts' as [pts'|]; [|discriminate]. cbn [option_map].
    destruct (searchSolutions fuel pts' (exps (reverseSelf p))) as [[ts' s2]| |] eqn:S2; [|discriminate|discriminate].
    destruct (Nat.eqb (count t_known ts') _); [|discriminate].
    intros [= <- <- <-]. eapply search_justified; eassumption.
Qed.
