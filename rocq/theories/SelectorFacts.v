(** Proofs about the configuration selectors. *)
From Coq Require Import Reals Lra List Bool Lia Arith.
From Verif Require Import Kdl KdlFacts Selector.
Import ListNotations.
Open Scope R_scope.
Local Notation S := Datatypes.S.

Lemma checkJointInLimits_iff : forall x lo hi, checkJointInLimits x lo hi = true <-> lo - kdl_eps <= x <= hi + kdl_eps.
Proof. intros. unfold checkJointInLimits. rewrite andb_true_iff, !Rleb_true. tauto. Qed.

Lemma validate_spec : forall q qMin qMax, length q = length qMin -> length q = length qMax ->
  exists b, validate q qMin qMax = Some b /\ (b = true <-> within qMin qMax q).
Proof.
  induction q as [|x q IH]; intros [|lo qMin] [|hi qMax] H1 H2; try discriminate; cbn.
  - exists true. split; auto. split; auto. intros _. repeat split; auto; destruct i; discriminate.
  - destruct (checkJointInLimits x lo hi) eqn:C.
    + destruct (IH qMin qMax) as (b & E & B); auto. exists b. split; auto. rewrite B.
      apply checkJointInLimits_iff in C. split; intros (L1 & L2 & W); (split; [cbn in *; lia|]; split; [cbn in *; lia|]).
      * intros [|i] y l h; cbn; [|apply W]. injection 1 as <-. injection 1 as <-. injection 1 as <-. exact C.
      * intros i y l h A B' D. apply (W (S i) y l h A B' D).
    + exists false. split; auto. split; [discriminate|]. intros (_ & _ & W). exfalso.
      assert (checkJointInLimits x lo hi = true) by (apply checkJointInLimits_iff, (W O x lo hi); reflexivity). congruence.
Qed.

Definition cfg_ok (qMin qMax : list R) (c : config) (q : list R) : Prop :=
  c_q c = q /\ (c_valid c = true <-> within qMin qMax q).

Lemma build_spec : forall qMin qMax sols,
  (forall q, In q sols -> length q = length qMin /\ length q = length qMax) ->
  exists l, build_configs qMin qMax sols = Some l /\ Forall2 (cfg_ok qMin qMax) l sols.
Proof.
  intros qMin qMax. induction sols as [|q sols IH]; intros H; cbn.
  - exists []. split; auto.
  - destruct (H q) as [L1 L2]; [left; auto|]. destruct (validate_spec q qMin qMax L1 L2) as (b & E & B).
    destruct IH as (l & E' & F); [intros; apply H; right; auto|]. rewrite E, E'.
    exists (Cfg q b :: l). split; auto. constructor; auto. split; auto.
Qed.

Lemma Forall2_nth : forall A B (P : A -> B -> Prop) l1 l2, Forall2 P l1 l2 ->
  (forall i a, nth_error l1 i = Some a -> exists b, nth_error l2 i = Some b /\ P a b) /\
  (forall i b, nth_error l2 i = Some b -> exists a, nth_error l1 i = Some a /\ P a b).
Proof.
  induction 1 as [|a b l1 l2 H F [I1 I2]].
  - split; intros [|i] ?; discriminate.
  - split; intros [|i] c; cbn; eauto; injection 1 as <-; eauto.
Qed.

Lemma sum_spec : forall g q, length g = length q -> sum_diffs g q = Some (displacement g q).
Proof.
  induction g as [|x g IH]; intros [|y q] H; try discriminate; cbn; auto. rewrite IH by (cbn in H; lia). reflexivity.
Qed.

(** ** The ordered set *)
Definition plt (a b : R * nat) : Prop := fst a < fst b \/ (fst a = fst b /\ (snd a < snd b)%nat).
Lemma pair_ltb_iff : forall a b, pair_ltb a b = true <-> plt a b.
Proof.
  intros [x i] [y j]. unfold pair_ltb, plt; cbn [fst snd]. rewrite orb_true_iff, andb_true_iff, negb_true_iff, Rltb_true, Rltb_false, Nat.ltb_lt.
  split; intros [H|[H K]]; auto; destruct (Rtotal_order x y) as [L|[L|L]]; auto; try lra. right. split; auto; lra.
Qed.
Lemma plt_total : forall a b, plt a b \/ a = b \/ plt b a.
Proof.
  intros [x i] [y j]. unfold plt; cbn. destruct (Rtotal_order x y) as [L|[->|L]]; auto.
  destruct (Nat.lt_total i j) as [|[->|]]; auto.
Qed.
Lemma plt_trans : forall a b c, plt a b -> plt b c -> plt a c.
Proof. intros [x i] [y j] [z k]. unfold plt; cbn. intros [|[]] [|[]]; try (left; lra). right. split; [lra|lia]. Qed.
Definition ple (a b : R * nat) : Prop := plt a b \/ a = b.

Lemma insert_in : forall x l y, In y (set_insert x l) <-> y = x \/ In y l.
Proof.
  intros x l y. induction l as [|z l IH]; cbn; [intuition|].
  destruct (pair_ltb x z) eqn:A; [cbn; intuition|]. destruct (pair_ltb z x) eqn:B; [cbn; rewrite IH; intuition|].
  assert (x = z).
  { destruct (plt_total x z) as [P|[P|P]]; auto; apply pair_ltb_iff in P; congruence. }
  subst. cbn. intuition.
Qed.
Definition head_min (l : list (R * nat)) : Prop :=
  match l with [] => True | x :: _ => forall y, In y l -> ple x y end.
Lemma insert_head_min : forall x l, head_min l -> head_min (set_insert x l).
Proof.
  intros x [|z l] H; cbn.
  - intros y [<-|[]]. right; auto.
  - cbn in H. destruct (pair_ltb x z) eqn:A.
    + apply pair_ltb_iff in A. intros y [<-|I]; [right; auto|]. destruct (H y I) as [P|<-]; left; auto. eapply plt_trans; eauto.
    + destruct (pair_ltb z x) eqn:B; [|exact H]. apply pair_ltb_iff in B.
      intros y [<-|I]; [right; auto|]. apply insert_in in I as [->|I]; [left; auto|]. apply H. right; auto.
Qed.

Lemma collect_spec : forall guess cs i acc,
  (forall c, In c cs -> length (c_q c) = length guess) -> head_min acc ->
  exists l, collect guess cs i acc = Some l /\ head_min l /\
    forall r j, In (r, j) l <-> In (r, j) acc \/
      exists k c, j = (i + k)%nat /\ nth_error cs k = Some c /\ c_valid c = true /\ r = displacement guess (c_q c).
Proof.
  intros guess. induction cs as [|c cs IH]; intros i acc L M; cbn.
  - exists acc. split; auto. split; auto. intros r j. split; auto. intros [H|(k & c & _ & N & _)]; auto. destruct k; discriminate.
  - destruct (c_valid c) eqn:V.
    + rewrite sum_spec by (symmetry; apply L; left; auto).
      destruct (IH (S i) (set_insert (displacement guess (c_q c), i) acc)) as (l & E & M' & I).
      { intros; apply L; right; auto. } { apply insert_head_min; auto. }
      exists l. split; auto. split; auto. intros r j. rewrite I, insert_in. split.
      * intros [[H|H]|(k & d & -> & N & V' & ->)]; auto.
        -- injection H as -> ->. right. exists O, c. repeat split; auto; lia.
        -- right. exists (S k), d. repeat split; auto; lia.
      * intros [H|([|k] & d & -> & N & V' & ->)]; auto.
        -- injection N as <-. left. left. f_equal. lia.
        -- right. exists k, d. repeat split; auto; lia.
    + destruct (IH (S i) acc) as (l & E & M' & I); auto. { intros; apply L; right; auto. }
      exists l. split; auto. split; auto. intros r j. rewrite I. split.
      * intros [H|(k & d & -> & N & V' & ->)]; auto. right. exists (S k), d. repeat split; auto; lia.
      * intros [H|([|k] & d & -> & N & V' & ->)]; auto.
        -- injection N as <-. congruence.
        -- right. exists k, d. repeat split; auto; lia.
Qed.

(** ** First use *)
Lemma find_first : forall s guess, s_last s = None ->
  (forall c, In c (s_configs s) -> length (c_q c) = length guess) ->
  ((forall c, In c (s_configs s) -> c_valid c = false) /\ find_least s guess = Some (false, s)) \/
  exists i c, nth_error (s_configs s) i = Some c /\ c_valid c = true /\
    find_least s guess = Some (true, Sel (s_min s) (s_max s) (s_configs s) (Some c) (Some i)) /\
    forall j d, nth_error (s_configs s) j = Some d -> c_valid d = true ->
      displacement guess (c_q c) < displacement guess (c_q d) \/
      (displacement guess (c_q c) = displacement guess (c_q d) /\ (i <= j)%nat).
Proof.
  intros s guess N L. unfold find_least. rewrite N.
  destruct (collect_spec guess (s_configs s) O [] L I) as (l & E & M & IN). rewrite E.
  destruct l as [|[r i] l].
  - left. split; auto. intros c Hc. destruct (c_valid c) eqn:V; auto. exfalso.
    apply In_nth_error in Hc as [k K]. apply (proj2 (IN (displacement guess (c_q c)) k)). right. exists k, c. auto.
  - right. destruct (proj1 (IN r i) (or_introl eq_refl)) as [[]|(k & c & -> & K & V & ->)]. cbn [plus] in *.
    exists k, c. rewrite K. repeat split; auto. intros j d J VJ.
    assert (Q : In (displacement guess (c_q d), j) ((displacement guess (c_q c), k) :: l)).
    { apply IN. right. exists j, d. auto. }
    apply M in Q as [[Q|[Q Q']]|Q]; cbn in *; auto; [right; split; auto; lia|]. injection Q as -> ->. right; auto.
Qed.

Definition valid_candidate (P : list R -> Prop) (qMin qMax : list R) (q : list R) : Prop := within qMin qMax q /\ P q.

(** the candidate chosen out of [sols]: valid, closest, first among equals *)
Definition chosen (ok : list R -> Prop) (sols : list (list R)) (guess q : list R) : Prop :=
  exists i, nth_error sols i = Some q /\ ok q /\
  forall j q', nth_error sols j = Some q' -> ok q' ->
    displacement guess q < displacement guess q' \/ (displacement guess q = displacement guess q' /\ (i <= j)%nat).

Lemma first_use : forall qMin qMax sols guess,
  (forall q, In q sols -> length q = length qMin /\ length q = length qMax) -> length guess = length qMin ->
  exists b s1, configure (new_selector qMin qMax) sols = Some (b, s1) /\
    (b = true <-> exists q, In q sols /\ within qMin qMax q) /\
    exists s2, find_least s1 guess = Some (b, s2) /\
      (b = true -> exists q, retrievePose s2 = Some q /\ chosen (within qMin qMax) sols guess q).
Proof.
  intros qMin qMax sols guess L G. destruct (build_spec qMin qMax sols L) as (l & E & F).
  unfold configure. cbn [new_selector s_min s_max s_optimal s_last]. rewrite E.
  destruct (Forall2_nth _ _ _ _ _ F) as [F1 F2].
  set (s1 := Sel qMin qMax l None None).
  assert (LC : forall c, In c (s_configs s1) -> length (c_q c) = length guess).
  { intros c Hc. cbn in Hc. apply In_nth_error in Hc as [k K]. destruct (F1 _ _ K) as (q & Q & -> & _).
    apply nth_error_In, L in Q. lia. }
  exists (existsb c_valid l), s1. split; auto. split.
  - rewrite existsb_exists. split.
    + intros (c & Hc & V). apply In_nth_error in Hc as [k K]. destruct (F1 _ _ K) as (q & Q & _ & W).
      exists q. split; [eapply nth_error_In; eauto | apply W; auto].
    + intros (q & Hq & W). apply In_nth_error in Hq as [k K]. destruct (F2 _ _ K) as (c & C & _ & V).
      exists c. split; [eapply nth_error_In; eauto | apply V; auto].
  - destruct (find_first s1 guess eq_refl LC) as [[N Z]|(i & c & C & V & Z & MIN)].
    + exists s1. replace (existsb c_valid l) with false.
      * split; auto. discriminate.
      * symmetry. destruct (existsb c_valid l) eqn:X; auto. apply existsb_exists in X as (c & Hc & V).
        rewrite N in V; auto. 
    + eexists. replace (existsb c_valid l) with true.
      2:{ symmetry. apply existsb_exists. exists c. split; auto. eapply nth_error_In; eauto. }
      split; [exact Z|]. intros _. cbn in C. destruct (F1 _ _ C) as (q & Q & EQ & W).
      exists (c_q c). split; [reflexivity|]. exists i. rewrite EQ. split; auto. split; [apply W; auto|].
      intros j q' J W'. destruct (F2 _ _ J) as (d & Dj & EQ' & V'). rewrite <- EQ, <- EQ'. apply MIN; auto. apply V'; auto.
Qed.

(** ** Walking posture *)
Lemma applyConstraints_spec : forall q, length q = 6%nat ->
  exists b, applyConstraints q = Some b /\ (b = true <-> gait_posture q).
Proof.
  intros q H. destruct q as [|q0 [|q1 [|q2 [|q3 [|q4 [|q5 [|]]]]]]]; try discriminate. unfold applyConstraints.
  assert (NG : forall b, (b = true <->
     Rabs q0 <= PI / 2 /\ Rabs q1 <= PI / 2 /\ Rabs q2 <= PI / 2 /\ 0 <= q3 /\ Rabs q4 <= PI / 2 /\ Rabs q5 <= PI / 2) ->
     (b = true <-> gait_posture [q0; q1; q2; q3; q4; q5])).
  { intros b B. rewrite B. split.
    - intro. exists q0, q1, q2, q3, q4, q5. auto.
    - intros (a & c & d & e & f & g & EQ & K). injection EQ as -> -> -> -> -> ->. auto. }
  destruct (Rltb (PI / 2) (Rabs q0)) eqn:E0; [apply Rltb_true in E0; exists false; split; auto; apply NG; split; [discriminate|lra] | apply Rltb_false in E0].
  destruct (Rltb (PI / 2) (Rabs q1)) eqn:E1; [apply Rltb_true in E1; exists false; split; auto; apply NG; split; [discriminate|lra] | apply Rltb_false in E1].
  destruct (Rltb (PI / 2) (Rabs q2)) eqn:E2; [apply Rltb_true in E2; exists false; split; auto; apply NG; split; [discriminate|lra] | apply Rltb_false in E2].
  destruct (Rltb q3 0) eqn:E3; [apply Rltb_true in E3; exists false; split; auto; apply NG; split; [discriminate|lra] | apply Rltb_false in E3].
  destruct (Rltb (PI / 2) (Rabs q4)) eqn:E4; [apply Rltb_true in E4; exists false; split; auto; apply NG; split; [discriminate|lra] | apply Rltb_false in E4].
  destruct (Rltb (PI / 2) (Rabs q5)) eqn:E5; [apply Rltb_true in E5; exists false; split; auto; apply NG; split; [discriminate|lra] | apply Rltb_false in E5].
  exists true. split; auto. apply NG. intuition.
Qed.

Definition gait_ok (qMin qMax q : list R) : Prop := within qMin qMax q /\ gait_posture q.

Lemma discard_spec : forall qMin qMax l sols, Forall2 (cfg_ok qMin qMax) l sols ->
  (forall q, In q sols -> length q = 6%nat) ->
  exists l', discard l = Some l' /\
    Forall2 (fun c q => c_q c = q /\ (c_valid c = true <-> gait_ok qMin qMax q)) l' sols.
Proof.
  intros qMin qMax l sols F. induction F as [|c q l sols [EQ V] F IH]; intros L; cbn.
  - exists []. auto.
  - destruct IH as (l' & E' & F'); [intros; apply L; right; auto|]. rewrite E'.
    destruct (c_valid c) eqn:VC.
    + destruct (applyConstraints_spec (c_q c)) as (b & E & B). { rewrite EQ. apply L; left; auto. }
      rewrite E. eexists. split; [reflexivity|]. constructor; auto. cbn. split; auto. rewrite B, EQ.
      unfold gait_ok. split; [intro G; split; auto; apply V; auto | tauto].
    + eexists. split; [reflexivity|]. constructor; auto. cbn. split; auto. split; [discriminate|].
      intros [W _]. apply V in W. discriminate.
Qed.

Lemma first_use_gait : forall qMin qMax sols guess,
  length qMin = 6%nat -> length qMax = 6%nat -> (forall q, In q sols -> length q = 6%nat) -> length guess = 6%nat ->
  exists b s1, configure (new_selector qMin qMax) sols = Some (b, s1) /\
    exists b2 s2, find_gait s1 guess = Some (b2, s2) /\
      (b2 = true <-> exists q, In q sols /\ gait_ok qMin qMax q) /\
      (b2 = true -> exists q, retrievePose s2 = Some q /\ chosen (gait_ok qMin qMax) sols guess q).
Proof.
  intros qMin qMax sols guess L1 L2 L G.
  assert (L' : forall q, In q sols -> length q = length qMin /\ length q = length qMax) by (intros q Hq; rewrite (L q Hq), L1, L2; auto).
  destruct (build_spec qMin qMax sols L') as (l & E & F).
  unfold configure. cbn [new_selector s_min s_max s_optimal s_last]. rewrite E.
  do 2 eexists. split; [reflexivity|]. unfold find_gait. rewrite G. cbn [Nat.eqb negb s_configs s_min s_max s_optimal s_last].
  destruct (discard_spec qMin qMax l sols F L) as (l' & E' & F'). rewrite E'.
  destruct (Forall2_nth _ _ _ _ _ F') as [F1 F2].
  set (s1 := Sel qMin qMax l' None None).
  assert (LC : forall c, In c (s_configs s1) -> length (c_q c) = length guess).
  { intros c Hc. cbn in Hc. apply In_nth_error in Hc as [k K]. destruct (F1 _ _ K) as (q & Q & -> & _).
    apply nth_error_In, L in Q. lia. }
  destruct (find_first s1 guess eq_refl LC) as [[N Z]|(i & c & C & V & Z & MIN)].
  - exists false, s1. split; auto. split; [|discriminate]. split; [discriminate|]. intros (q & Hq & W).
    apply In_nth_error in Hq as [k K]. destruct (F2 _ _ K) as (c & C & _ & V).
    rewrite (N c) in V by (eapply nth_error_In; exact C). apply V in W. discriminate.
  - do 2 eexists. split; [exact Z|]. cbn in C. destruct (F1 _ _ C) as (q & Q & EQ & W). split.
    + split; auto. intros _. exists q. split; [eapply nth_error_In; eauto | apply W; auto].
    + intros _. exists (c_q c). split; [reflexivity|]. exists i. rewrite EQ. split; auto. split; [apply W; auto|].
      intros j q' J W'. destruct (F2 _ _ J) as (d & Dj & EQ' & V'). rewrite <- EQ, <- EQ'. apply MIN; auto. apply V'; auto.
Qed.

(** ** Later uses *)
Lemma last_kept : forall os s s' i, s_last s = Some i -> sel_run find_least s os = Some s' ->
  s_last s' = Some i /\ s_min s' = s_min s /\ s_max s' = s_max s.
Proof.
  induction os as [|o os IH]; intros s s' i H R; cbn in R.
  - injection R as <-. auto.
  - destruct (sel_step find_least s o) as [[b s1]|] eqn:E; [|discriminate].
    assert (K : s_last s1 = Some i /\ s_min s1 = s_min s /\ s_max s1 = s_max s).
    { destruct o; cbn in E.
      - unfold configure in E. destruct (build_configs _ _ _); [|discriminate]. injection E as _ <-. auto.
      - unfold find_least in E. rewrite H in E. destruct (nth_error _ _) as [c|]; [|discriminate].
        destruct (c_valid c); injection E as _ <-; auto. }
    destruct K as (K1 & K2 & K3). destruct (IH _ _ _ K1 R) as (A & B & C). rewrite B, C. auto.
Qed.

Lemma chosen_index : forall s guess s', s_last s = None ->
  find_least s guess = Some (true, s') -> exists i, s_last s' = Some i /\
    exists c, nth_error (s_configs s) i = Some c /\ retrievePose s' = Some (c_q c).
Proof.
  intros s guess s' N H. unfold find_least in H. rewrite N in H.
  destruct (collect _ _ _ _) as [[|[r i] l]|]; try discriminate.
  destruct (nth_error (s_configs s) i) as [c|] eqn:C; [|discriminate]. injection H as <-.
  exists i. split; auto. exists c. auto.
Qed.

(** after the first success with branch i, whatever happens in between, a configure of new
    candidates followed by a search returns branch i iff it is within limits *)
Lemma branch_kept : forall s0 guess0 s1 os s2 sols guess,
  s_last s0 = None -> find_least s0 guess0 = Some (true, s1) -> sel_run find_least s1 os = Some s2 ->
  (forall q, In q sols -> length q = length (s_min s0) /\ length q = length (s_max s0)) ->
  exists i c, nth_error (s_configs s0) i = Some c /\ retrievePose s1 = Some (c_q c) /\
    ((i < length sols)%nat ->
     exists q b s3 b' s4, nth_error sols i = Some q /\
       configure s2 sols = Some (b, s3) /\ find_least s3 guess = Some (b', s4) /\
       (b' = true <-> within (s_min s0) (s_max s0) q) /\
       (b' = true -> retrievePose s4 = Some q)).
Proof.
  intros s0 guess0 s1 os s2 sols guess N H R L.
  destruct (chosen_index _ _ _ N H) as (i & LI & c & C & P). exists i, c. split; auto. split; auto.
  intro LT. assert (MM : s_min s1 = s_min s0 /\ s_max s1 = s_max s0).
  { unfold find_least in H. rewrite N in H. destruct (collect _ _ _ _) as [[|[r j] l]|]; try discriminate.
    destruct (nth_error _ _); [|discriminate]. injection H as <-. auto. }
  destruct (last_kept _ _ _ _ LI R) as (L2 & M2 & X2). destruct MM as [MM1 MM2].
  assert (M0 : s_min s2 = s_min s0) by congruence. assert (X0 : s_max s2 = s_max s0) by congruence.
  destruct (build_spec (s_min s0) (s_max s0) sols L) as (l & E & F).
  destruct (nth_error sols i) as [q|] eqn:Q; [|apply nth_error_None in Q; lia].
  destruct (Forall2_nth _ _ _ _ _ F) as [_ F2]. destruct (F2 _ _ Q) as (d & D & EQ & V).
  exists q. unfold configure. rewrite M0, X0, E. do 2 eexists.
  unfold find_least. cbn [s_last s_configs s_min s_max]. 
  destruct (c_valid d) eqn:VD.
  - exists true. eexists. split; auto. split; [reflexivity|]. cbn [s_last s_configs s_min s_max]. rewrite L2, D, VD. split; [reflexivity|].
    split; [tauto|]. intros _. unfold retrievePose; cbn. rewrite EQ. reflexivity.
  - exists false. eexists. split; auto. split; [reflexivity|]. cbn [s_last s_configs s_min s_max]. rewrite L2, D, VD. split; [reflexivity|].
    split; [|discriminate]. tauto.
Qed.

(** the same for the walking selector *)
Lemma find_least_last : forall s g b s' i, s_last s = Some i -> find_least s g = Some (b, s') ->
  s_last s' = Some i /\ s_min s' = s_min s /\ s_max s' = s_max s.
Proof.
  intros s g b s' i H E. unfold find_least in E. rewrite H in E. destruct (nth_error _ _) as [c|]; [|discriminate].
  destruct (c_valid c); injection E as _ <-; auto.
Qed.
Lemma last_kept_gait : forall os s s' i, s_last s = Some i -> sel_run find_gait s os = Some s' ->
  s_last s' = Some i /\ s_min s' = s_min s /\ s_max s' = s_max s.
Proof.
  induction os as [|o os IH]; intros s s' i H R; cbn in R.
  - injection R as <-. auto.
  - destruct (sel_step find_gait s o) as [[b s1]|] eqn:E; [|discriminate].
    assert (K : s_last s1 = Some i /\ s_min s1 = s_min s /\ s_max s1 = s_max s).
    { destruct o; cbn in E.
      - unfold configure in E. destruct (build_configs _ _ _); [|discriminate]. injection E as _ <-. auto.
      - unfold find_gait in E. destruct (negb _); [injection E as _ <-; auto|].
        destruct (discard _); [|discriminate]. eapply find_least_last in E; [|exact H]. exact E. }
    destruct K as (K1 & K2 & K3). destruct (IH _ _ _ K1 R) as (A & B & C). rewrite B, C. auto.
Qed.
Lemma discard_nth : forall l l' i c, discard l = Some l' -> nth_error l' i = Some c ->
  exists d, nth_error l i = Some d /\ c_q d = c_q c.
Proof.
  induction l as [|d l IH]; cbn; intros l' i c E N.
  - injection E as <-. destruct i; discriminate.
  - destruct (if c_valid d then _ else _); [|discriminate]. destruct (discard l) as [l1|] eqn:D; [|discriminate].
    injection E as <-. destruct i; cbn in *; [injection N as <-; eauto|]. eapply IH; eauto.
Qed.
Lemma branch_kept_gait : forall s0 guess0 s1 os s2 sols guess,
  s_last s0 = None -> find_gait s0 guess0 = Some (true, s1) -> sel_run find_gait s1 os = Some s2 ->
  length (s_min s0) = 6%nat -> length (s_max s0) = 6%nat ->
  (forall q, In q sols -> length q = 6%nat) -> length guess = 6%nat ->
  exists i c, nth_error (s_configs s0) i = Some c /\ retrievePose s1 = Some (c_q c) /\
    ((i < length sols)%nat ->
     exists q b s3 b' s4, nth_error sols i = Some q /\
       configure s2 sols = Some (b, s3) /\ find_gait s3 guess = Some (b', s4) /\
       (b' = true <-> gait_ok (s_min s0) (s_max s0) q) /\
       (b' = true -> retrievePose s4 = Some q)).
Proof.
  intros s0 guess0 s1 os s2 sols guess N H R L1 L2 L G.
  unfold find_gait in H. destruct (negb _); [discriminate|]. destruct (discard (s_configs s0)) as [l0|] eqn:D0; [|discriminate].
  destruct (chosen_index _ _ _ (N : s_last (Sel (s_min s0) (s_max s0) l0 (s_optimal s0) (s_last s0)) = None) H) as (i & LI & c & C & P).
  cbn [s_configs] in C. destruct (discard_nth _ _ _ _ D0 C) as (d0 & C0 & EQ0).
  exists i, d0. split; auto. split; [congruence|].
  intro LT. assert (MM : s_min s1 = s_min s0 /\ s_max s1 = s_max s0).
  { unfold find_least in H. cbn [s_last] in H. rewrite N in H. destruct (collect _ _ _ _) as [[|[r j] l]|]; try discriminate.
    destruct (nth_error _ _); [|discriminate]. injection H as <-. auto. }
  destruct (last_kept_gait _ _ _ _ LI R) as (L2' & M2 & X2). destruct MM as [MM1 MM2].
  assert (M0 : s_min s2 = s_min s0) by congruence. assert (X0 : s_max s2 = s_max s0) by congruence.
  assert (LL : forall q, In q sols -> length q = length (s_min s0) /\ length q = length (s_max s0)).
  { intros q Hq. rewrite L1, L2, (L q Hq); auto. }
  destruct (build_spec (s_min s0) (s_max s0) sols LL) as (l & E & F).
  destruct (nth_error sols i) as [q|] eqn:Q; [|apply nth_error_None in Q; lia].
  destruct (discard_spec _ _ _ _ F L) as (l' & E' & F').
  destruct (Forall2_nth _ _ _ _ _ F') as [_ F2]. destruct (F2 _ _ Q) as (d & D & EQ & V).
  exists q. unfold configure. rewrite M0, X0, E. do 2 eexists.
  destruct (c_valid d) eqn:VD.
  - exists true. eexists. split; auto. split; [reflexivity|]. unfold find_gait. rewrite G. cbn [Nat.eqb negb s_last s_configs s_min s_max s_optimal].
    rewrite E'. unfold find_least. cbn [s_last s_configs s_min s_max]. rewrite L2', D, VD. split; [reflexivity|].
    split; [tauto|]. intros _. unfold retrievePose; cbn. rewrite EQ. reflexivity.
  - exists false. eexists. split; auto. split; [reflexivity|]. unfold find_gait. rewrite G. cbn [Nat.eqb negb s_last s_configs s_min s_max s_optimal].
    rewrite E'. unfold find_least. cbn [s_last s_configs s_min s_max]. rewrite L2', D, VD. split; [reflexivity|].
    split; [|discriminate]. tauto.
Qed.

(** ** Counterexample to availability *)
Lemma within1 : forall lo hi x, within [lo] [hi] [x] <-> lo - kdl_eps <= x <= hi + kdl_eps.
Proof.
  intros. unfold within. split.
  - intros (_ & _ & W). apply (W O x lo hi); reflexivity.
  - intro H. repeat split; auto; destruct i as [|[|]]; cbn in *; try discriminate;
    repeat match goal with A : Some _ = Some _ |- _ => injection A as <- end; lra.
Qed.
Lemma validate1 : forall x lo hi, validate [x] [lo] [hi] = Some (checkJointInLimits x lo hi).
Proof. intros. cbn. destruct (checkJointInLimits x lo hi); reflexivity. Qed.
Lemma cj_true : forall x lo hi, lo <= x <= hi -> checkJointInLimits x lo hi = true.
Proof. intros. apply checkJointInLimits_iff. pose proof kdl_eps_pos. lra. Qed.
Lemma cj_false : forall x lo hi, hi + 1 <= x -> checkJointInLimits x lo hi = false.
Proof.
  intros. destruct (checkJointInLimits x lo hi) eqn:E; auto. apply checkJointInLimits_iff in E. unfold kdl_eps in E. lra.
Qed.

Lemma availability_ex : exists qMin qMax sols0 guess0 sols guess s1 s2,
  sel_run find_least (new_selector qMin qMax) [Configure sols0; Find guess0] = Some s1 /\
  (exists q, In q sols /\ within qMin qMax q) /\
  configure s1 sols = Some (true, s2) /\ find_least s2 guess = Some (false, s2).
Proof.
  exists [-1], [1], [[0]; [1]], [0], [[5]; [0]], [0].
  assert (B0 : build_configs [-1] [1] [[0]; [1]] = Some [Cfg [0] true; Cfg [1] true]).
  { unfold build_configs. rewrite !validate1, !cj_true by lra. reflexivity. }
  assert (B1 : build_configs [-1] [1] [[5]; [0]] = Some [Cfg [5] false; Cfg [0] true]).
  { unfold build_configs. rewrite !validate1, (cj_true 0), (cj_false 5) by lra. reflexivity. }
  assert (F : find_least (Sel [-1] [1] [Cfg [0] true; Cfg [1] true] None None) [0] =
              Some (true, Sel [-1] [1] [Cfg [0] true; Cfg [1] true] (Some (Cfg [0] true)) (Some O))).
  { unfold find_least, collect. cbn [s_last s_configs c_valid c_q sum_diffs].
    assert (P : pair_ltb (Rabs (0 - 1) + 0, 1%nat) (Rabs (0 - 0) + 0, 0%nat) = false).
    { destruct (pair_ltb _ _) eqn:X; auto. apply pair_ltb_iff in X. unfold plt in X; cbn in X.
      rewrite Rminus_0_r, Rabs_R0 in X. rewrite Rabs_left in X by lra. destruct X as [X|[X _]]; lra. }
    assert (P' : pair_ltb (Rabs (0 - 0) + 0, 0%nat) (Rabs (0 - 1) + 0, 1%nat) = true).
    { apply pair_ltb_iff. left. cbn. rewrite Rminus_0_r, Rabs_R0, Rabs_left by lra. lra. }
    cbn [set_insert]. rewrite P, P'. reflexivity. }
  do 2 eexists. split; [|split; [|split]].
  - cbn [sel_run sel_step]. unfold configure. cbn [new_selector s_min s_max s_optimal s_last]. rewrite B0.
    rewrite F. reflexivity.
  - exists [0]. split; [right; left; auto|]. apply within1. pose proof kdl_eps_pos. lra.
  - unfold configure. cbn [s_min s_max s_optimal s_last]. rewrite B1. reflexivity.
  - reflexivity.
Qed.
