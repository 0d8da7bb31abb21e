(** Proofs about the closed-form inverse kinematics: bookkeeping of branches. *)
From Coq Require Import Reals Lra List Bool Lia Arith.
From Verif Require Import Kdl KdlFacts Screw ScrewFacts Trig Subproblems IkProblem IkSpec.
Import ListNotations.
Open Scope R_scope.
Local Notation S := Datatypes.S.

(** ** Lists *)
Lemma put_length : forall A (l : list A) i x, length (put l i x) = length l.
Proof. induction l as [|y l IH]; intros [|i] x; cbn; auto. Qed.
Lemma put_same : forall A (l : list A) i x, (i < length l)%nat -> nth_error (put l i x) i = Some x.
Proof. induction l as [|y l IH]; intros [|i] x H; cbn in *; try lia; auto. apply IH. lia. Qed.
Lemma put_other : forall A (l : list A) i j x, i <> j -> nth_error (put l i x) j = nth_error l j.
Proof. induction l as [|y l IH]; intros [|i] [|j] x H; cbn in *; auto; try lia. Qed.
Lemma put_nth_same : forall A (l : list A) i x d, (i < length l)%nat -> nth i (put l i x) d = x.
Proof. induction l as [|y l IH]; intros [|i] x d H; cbn in *; try lia; auto. apply IH. lia. Qed.
Lemma put_nth_other : forall A (l : list A) i j x d, i <> j -> nth j (put l i x) d = nth j l d.
Proof. induction l as [|y l IH]; intros [|i] [|j] x d H; cbn in *; auto; try lia. Qed.
Lemma upd_put : forall A (l : list A) i x, (i < length l)%nat -> upd l i x = Some (put l i x).
Proof. induction l as [|y l IH]; intros [|i] x H; cbn in *; try lia; auto. rewrite IH by lia. reflexivity. Qed.
Lemma upd_some : forall A (l l' : list A) i x, upd l i x = Some l' -> (i < length l)%nat /\ l' = put l i x.
Proof.
  intros A l l' i x H. destruct (Nat.lt_ge_cases i (length l)) as [L|L].
  - rewrite upd_put in H by auto. injection H as <-. auto.
  - exfalso. revert i l' L H. induction l as [|y l IH]; intros [|i] l' L H; cbn in *; try lia; try discriminate.
    destruct (upd l i x) eqn:E; [|discriminate]. eapply IH; [|exact E]. lia.
Qed.
Lemma nth_error_ext : forall A (l l' : list A), length l = length l' ->
  (forall i, (i < length l)%nat -> nth_error l i = nth_error l' i) -> l = l'.
Proof.
  induction l as [|x l IH]; intros [|y l'] L H; cbn in *; try discriminate; auto.
  f_equal. - specialize (H O ltac:(lia)). cbn in H. congruence. - apply IH; [lia|]. intros i Hi. apply (H (S i)). lia.
Qed.
Lemma resize_nth : forall A (l : list A) n d i, (i < length l)%nat -> (i < n)%nat -> nth_error (resize l n d) i = nth_error l i.
Proof.
  intros. unfold resize. rewrite nth_error_app1 by (rewrite firstn_length; lia).
  revert n i H H0. induction l as [|x l IH]; intros [|n] [|i] H H0; cbn in *; try lia; auto. apply IH; lia.
Qed.
Lemma resize_length : forall A (l : list A) n d, length (resize l n d) = n.
Proof. intros. unfold resize. rewrite app_length, firstn_length, repeat_length. lia. Qed.
Lemma replicate_spec : forall A k idx prev (x : A) l, (0 < prev)%nat -> (idx + prev * k <= length l + prev - 1)%nat ->
  exists l', replicate k idx prev x l = Some l' /\ length l' = length l /\
    (forall i, (i < k)%nat -> nth_error l' (idx + prev * i) = Some x) /\
    (forall j, (forall i, (i < k)%nat -> j <> (idx + prev * i)%nat) -> nth_error l' j = nth_error l j).
Proof.
  intros A. induction k as [|k IH]; intros idx prev x l P H; cbn [replicate].
  - exists l. repeat split; auto; intros; lia.
  - rewrite upd_put by nia. destruct (IH (idx + prev)%nat prev x (put l idx x)) as (l' & E & L & A1 & A2); auto.
    { rewrite put_length. nia. }
    exists l'. rewrite put_length in L. split; auto. split; auto. split.
    + intros [|i] Hi.
      * rewrite A2 by (intros; nia). rewrite Nat.mul_0_r, Nat.add_0_r. apply put_same. nia.
      * replace (idx + prev * S i)%nat with (idx + prev + prev * i)%nat by nia. apply A1. lia.
    + intros j Hj. rewrite A2.
      * apply put_other. specialize (Hj O). lia.
      * intros i Hi. specialize (Hj (S i)). nia.
Qed.

(** ** Marks *)
Definition mark (ids : list nat) (ts : list term) : list term := fold_left (fun ts i => put ts i KNOWN) ids ts.
Lemma mark_length : forall ids ts, length (mark ids ts) = length ts.
Proof. induction ids; intros; cbn; auto. unfold mark in IHids. rewrite IHids. apply put_length. Qed.
Lemma mark_nth : forall ids ts i, (i < length ts)%nat ->
  nth_error (mark ids ts) i = if in_dec Nat.eq_dec i ids then Some KNOWN else nth_error ts i.
Proof.
  induction ids as [|a ids IH]; intros ts i L; cbn [mark fold_left].
  - destruct (in_dec Nat.eq_dec i []) as [[]|]. reflexivity.
  - change (fold_left (fun ts i => put ts i KNOWN) ids (put ts a KNOWN)) with (mark ids (put ts a KNOWN)).
    rewrite IH by (rewrite put_length; auto).
    destruct (in_dec Nat.eq_dec i ids) as [I|I]; destruct (in_dec Nat.eq_dec i (a :: ids)) as [J|J]; auto.
    + destruct J. right; auto.
    + destruct J as [->|J]; [|tauto]. apply put_same; auto.
    + apply put_other. intros ->. apply J. left; auto.
Qed.
Lemma mark_mark : forall ids ts, mark ids (mark ids ts) = mark ids ts.
Proof.
  intros. apply nth_error_ext; [rewrite !mark_length; auto|]. intros i L. rewrite !mark_length in L.
  rewrite !mark_nth by (rewrite ?mark_length; auto). destruct (in_dec Nat.eq_dec i ids); auto.
Qed.

Section Facts.
Variable p : poe.
Variable reversed : bool.
Let es := exps p.
Let n := length es.

Lemma slot_lt : forall i, (i < n)%nat -> (slot p reversed i < n)%nat.
Proof. intros i H. unfold slot. fold es. fold n. destruct reversed; lia. Qed.
Lemma slot_inj : forall i j, (i < n)%nat -> (j < n)%nat -> slot p reversed i = slot p reversed j -> i = j.
Proof. intros i j Hi Hj. unfold slot. fold es. fold n. destruct reversed; lia. Qed.

Lemma getTheta_some : forall q i, length q = n -> (i < n)%nat ->
  getTheta q i reversed = Some (if reversed then - nth (slot p reversed i) q 0 else nth (slot p reversed i) q 0).
Proof.
  intros q i L H. unfold getTheta, slot. fold es. fold n. rewrite L. destruct reversed.
  - rewrite (nth_error_nth' q 0) by lia. reflexivity.
  - apply nth_error_nth'. lia.
Qed.
Lemma exp_some : forall i, (i < n)%nat -> nth_error es i = Some (nth i es (E ROTATION vzero vzero)).
Proof. intros. apply nth_error_nth'. auto. Qed.

(** ** store *)
Lemma assign_cons : forall id th loc q, assign p reversed ((id, th) :: loc) q =
  assign p reversed loc (put q (slot p reversed id) (if reversed then - th else th)).
Proof. reflexivity. Qed.
Lemma assign_length : forall loc q, length (assign p reversed loc q) = length q.
Proof. induction loc as [|[id th] loc IH]; intros; [reflexivity|]. rewrite assign_cons, IH. apply put_length. Qed.
Lemma store_ok : forall loc q ts, length q = n -> length ts = n -> (forall i, In i (map fst loc) -> (i < n)%nat) ->
  store es reversed loc q ts = Some (assign p reversed loc q, mark (map fst loc) ts).
Proof.
  induction loc as [|[id th] loc IH]; intros q ts Lq Lt B; cbn [store]; [reflexivity|].
  assert (I : (id < n)%nat) by (apply B; left; auto).
  rewrite upd_put by (rewrite Lt; auto).
  replace (if reversed then (length es - 1 - id)%nat else id) with (slot p reversed id) by reflexivity.
  rewrite upd_put by (rewrite Lq; apply slot_lt; auto).
  rewrite IH; [reflexivity | rewrite put_length; auto | rewrite put_length; auto | intros; apply B; right; auto].
Qed.

Lemma store_all_ok : forall ids (locs : solutions) idx prev sols ts q, (0 < prev)%nat -> length q = n -> length ts = n ->
  (forall loc, In loc locs -> map fst loc = ids) -> (forall i, In i ids -> (i < n)%nat) -> locs <> [] ->
  (forall k, (k < length locs)%nat -> nth_error sols (idx + prev * k) = Some q) ->
  exists sols', store_all es reversed locs idx prev sols ts = Some (sols', mark ids ts) /\
    length sols' = length sols /\
    (forall k loc, nth_error locs k = Some loc -> nth_error sols' (idx + prev * k) = Some (assign p reversed loc q)) /\
    (forall j, (forall k, (k < length locs)%nat -> j <> (idx + prev * k)%nat) -> nth_error sols' j = nth_error sols j).
Proof.
  intros ids. induction locs as [|loc locs IH]; intros idx prev sols ts q P Lq Lt HL B NE SQ; [congruence|].
  cbn [store_all]. assert (S0 := SQ O ltac:(cbn; lia)). rewrite Nat.mul_0_r, Nat.add_0_r in S0. rewrite S0.
  assert (E0 : map fst loc = ids) by (apply HL; left; auto).
  rewrite store_ok; auto; [|rewrite E0; auto]. rewrite E0.
  assert (idx < length sols)%nat by (apply nth_error_Some; congruence).
  rewrite upd_put by auto.
  destruct locs as [|loc2 locs].
  - cbn [store_all]. eexists. split; [reflexivity|]. split; [apply put_length|]. split.
    + intros [|k] l; cbn; [|destruct k; discriminate]. injection 1 as <-. rewrite Nat.mul_0_r, Nat.add_0_r. apply put_same; auto.
    + intros j Hj. apply put_other. specialize (Hj O). cbn in Hj. lia.
  - destruct (IH (idx + prev)%nat prev (put sols idx (assign p reversed loc q)) (mark ids ts) q) as (sols' & E & L & A1 & A2); auto.
    + rewrite mark_length; auto.
    + intros; apply HL; right; auto.
    + discriminate.
    + intros k Hk. rewrite put_other by nia. replace (idx + prev + prev * k)%nat with (idx + prev * S k)%nat by nia.
      apply SQ. cbn in *. lia.
    + exists sols'. rewrite E, mark_mark. split; auto. rewrite L, put_length. split; auto. split.
      * intros [|k] l; cbn [nth_error].
        -- injection 1 as <-. rewrite A2 by (intros; nia). rewrite Nat.mul_0_r, Nat.add_0_r. apply put_same; auto.
        -- intro Hk. replace (idx + prev * S k)%nat with (idx + prev + prev * k)%nat by nia. apply A1; auto.
      * intros j Hj. rewrite A2.
        -- apply put_other. specialize (Hj O). cbn in Hj. lia.
        -- intros k Hk. specialize (Hj (S k)). cbn [length] in *. nia.
Qed.

(** ** The loop over the branches *)
Section Branches.
Variable s : step.
Variable ids : list nat.
Hypothesis SOK : step_ok s ids.
Hypothesis IDS : forall i, In i ids -> (i < n)%nat.
Variable sols0 : list (list R).
Variable rhs0 : list frame.
Variable ts0 : list term.
Variable reach0 : bool.
Let N := length sols0.
Let m := st_count s.
Hypothesis NPOS : (0 < N)%nat.
Hypothesis LRHS : length rhs0 = N.
Hypothesis LTS : length ts0 = n.
Hypothesis LQ : forall q, In q sols0 -> length q = n.

Definition ts_of (j : nat) : list term := match j with O => ts0 | S _ => mark ids ts0 end.
Definition branch_res (j : nat) (sols : list (list R)) (rhss : list frame) (fl : bool) : Prop :=
  exists q rhs h locs, nth_error sols0 j = Some q /\ nth_error rhs0 j = Some rhs /\
    transformPoint es reversed q (ts_of j) = Some h /\ st_solve s rhs h = Some (fl, locs) /\ length locs = m /\
    forall k loc, nth_error locs k = Some loc ->
      nth_error sols (j + N * k) = Some (assign p reversed loc q) /\ nth_error rhss (j + N * k) = Some rhs.
Definition binv (t : nat) (st : ik_state) : Prop :=
  k_terms st = ts_of t /\
  (t = O -> length (k_sols st) = N /\ length (k_rhs st) = N) /\
  ((0 < t)%nat -> length (k_sols st) = (N * m)%nat /\ length (k_rhs st) = (N * m)%nat) /\
  (forall j, (t <= j < N)%nat -> nth_error (k_sols st) j = nth_error sols0 j /\ nth_error (k_rhs st) j = nth_error rhs0 j) /\
  exists fls, length fls = t /\ k_reach st = reach0 && forallb (fun b => b) fls /\
    forall j, (j < t)%nat -> branch_res j (k_sols st) (k_rhs st) (nth j fls true).

Lemma m_pos : (1 <= m)%nat. Proof. apply SOK. Qed.

Lemma body_inv : forall t st st', (t < N)%nat -> binv t st -> branch_body es reversed s N t st = Some st' -> binv (S t) st'.
Proof.
  intros t st st' Ht (IT & I0 & I1 & IR & fls & LF & RE & ID) H.
  destruct (IR t ltac:(lia)) as [Q Q'].
  destruct (nth_error sols0 t) as [q|] eqn:Eq; [|apply nth_error_None in Eq; fold N in Eq; lia].
  destruct (nth_error rhs0 t) as [rhs|] eqn:Er; [|apply nth_error_None in Er; lia].
  unfold branch_body in H. rewrite Q, Q' in H.
  destruct (transformPoint es reversed q (k_terms st)) as [h|] eqn:TP; [|discriminate].
  destruct (st_solve s rhs h) as [[flag locs]|] eqn:SV; [|discriminate].
  destruct SOK as (MP & IDNE & CT). destruct (CT _ _ _ _ SV) as [LL LI]. fold m in MP, LL.
  assert (Lq : length q = n) by (apply LQ; eapply nth_error_In; eauto).
  assert (SL : (N <= length (k_sols st) <= N * m)%nat /\ length (k_rhs st) = length (k_sols st)).
  { destruct t; [destruct (I0 eq_refl)|destruct (I1 ltac:(lia))]; nia. }
  (* after the copies *)
  assert (R : exists sols rhss,
    (if Nat.ltb 1 (length locs)
     then match replicate (length locs - 1) (t + N) N q (resize (k_sols st) (N * length locs) []),
                replicate (length locs - 1) (t + N) N rhs (resize (k_rhs st) (N * length locs) fid) with
          | Some a, Some b => Some (a, b) | _, _ => None end
     else Some (k_sols st, k_rhs st)) = Some (sols, rhss) /\
    length sols = (N * m)%nat /\ length rhss = (N * m)%nat /\
    (forall k, (k < m)%nat -> nth_error sols (t + N * k) = Some q /\ nth_error rhss (t + N * k) = Some rhs) /\
    (forall j, (j < length (k_sols st))%nat -> (forall k, (k < m)%nat -> j <> (t + N * k)%nat) ->
       nth_error sols j = nth_error (k_sols st) j /\ nth_error rhss j = nth_error (k_rhs st) j)).
  { rewrite LL. destruct (Nat.ltb 1 m) eqn:M1.
    - apply Nat.ltb_lt in M1.
      destruct (replicate_spec _ (m - 1) (t + N) N q (resize (k_sols st) (N * m) [])) as (a & Ea & La & A1 & A2); auto.
      { rewrite resize_length. nia. }
      destruct (replicate_spec _ (m - 1) (t + N) N rhs (resize (k_rhs st) (N * m) fid)) as (b & Eb & Lb & B1 & B2); auto.
      { rewrite resize_length. nia. }
      rewrite Ea, Eb. exists a, b. rewrite resize_length in La, Lb. repeat split; auto.
      + destruct k as [|k].
        * rewrite Nat.mul_0_r, Nat.add_0_r, A2 by (intros; nia). rewrite resize_nth by nia. auto.
        * replace (t + N * S k)%nat with (t + N + N * k)%nat by nia. apply A1. lia.
      + destruct k as [|k].
        * rewrite Nat.mul_0_r, Nat.add_0_r, B2 by (intros; nia). rewrite resize_nth by nia. auto.
        * replace (t + N * S k)%nat with (t + N + N * k)%nat by nia. apply B1. lia.
      + rewrite A2; [apply resize_nth; nia|]. intros i Hi. specialize (H1 (S i)). nia.
      + rewrite B2; [apply resize_nth; nia|]. intros i Hi. specialize (H1 (S i)). nia.
    - apply Nat.ltb_ge in M1. assert (m = 1)%nat by lia.
      exists (k_sols st), (k_rhs st). split; auto. split; [nia|]. split; [nia|]. split; [|auto].
      intros k Hk. replace k with O by lia. rewrite Nat.mul_0_r, Nat.add_0_r; auto. }
  destruct R as (sols & rhss & ER & Ls & Lr & RK & RO). rewrite ER in H.
  assert (LT : length (k_terms st) = n). { rewrite IT. destruct t; cbn; rewrite ?mark_length; auto. }
  destruct (store_all_ok ids locs t N sols (k_terms st) q) as (sols' & ES & Ls' & S1 & S2); auto.
  { intro K. rewrite K in LL. cbn in LL. lia. }
  { intros k Hk. apply RK. lia. }
  rewrite ES in H. injection H as <-.
  assert (TE : mark ids (k_terms st) = mark ids ts0). { rewrite IT. destruct t; cbn; auto. apply mark_mark. }
  assert (NEQ : forall j k k', (j < N)%nat -> j <> t -> (j + N * k)%nat <> (t + N * k')%nat).
  { intros j k k' Hj Hne Q2. assert (k = k' \/ k < k' \/ k' < k)%nat as [->|[|]] by lia; nia. }
  unfold binv. cbn [k_terms k_sols k_rhs k_reach]. split; [exact TE|]. split; [lia|]. split; [intros _; split; congruence|].
  split.
  { intros j Hj. 
    assert (forall k, (k < m)%nat -> j <> (t + N * k)%nat).
    { intros k _. specialize (NEQ j O k). rewrite Nat.mul_0_r, Nat.add_0_r in NEQ. apply NEQ; lia. }
    destruct (IR j ltac:(lia)) as [<- <-]. destruct (RO j) as [R1 R2]; auto; [lia|].
    rewrite S2 by (rewrite LL; auto). auto. }
  exists (fls ++ [flag]). split; [rewrite app_length; cbn; lia|]. split.
  { rewrite RE, forallb_app. cbn. rewrite andb_true_r, andb_assoc. reflexivity. }
  intros j Hj. destruct (Nat.eq_dec j t) as [->|NE].
  - rewrite app_nth2 by lia. replace (t - length fls)%nat with O by lia. cbn [nth].
    exists q, rhs, h, locs. rewrite IT in TP. repeat split; auto. apply RK.
    rewrite <- LL. apply nth_error_Some. congruence.
  - rewrite app_nth1 by lia. destruct (ID j ltac:(lia)) as (q1 & r1 & h1 & l1 & B1 & B2 & B3 & B4 & B5 & B6).
    exists q1, r1, h1, l1. repeat split; auto.
    + rewrite S2 by (intros; apply NEQ; lia).
      destruct (B6 _ _ H) as [K1 K2]. rewrite <- K1. apply RO; [apply nth_error_Some; congruence | intros; apply NEQ; lia].
    + destruct (B6 _ _ H) as [K1 K2]. rewrite <- K2. apply RO; [apply nth_error_Some; congruence | intros; apply NEQ; lia].
Qed.

Lemma loop_inv : forall d t st st', (t + d = N)%nat -> binv t st ->
  branch_loop es reversed s N (seq t d) st = Some st' -> binv N st'.
Proof.
  induction d as [|d IH]; intros t st st' E I H; cbn in H.
  - injection H as <-. replace N with t by lia. exact I.
  - destruct (branch_body es reversed s N t st) as [st1|] eqn:B; [|discriminate].
    apply (IH (S t) st1); auto; [lia|]. eapply body_inv; eauto. lia.
Qed.
Lemma binv_start : binv O (IkSt sols0 rhs0 ts0 reach0).
Proof.
  unfold binv; cbn [k_terms k_sols k_rhs k_reach]. repeat split; auto; try lia.
  exists []. repeat split; auto. cbn. rewrite andb_true_r. auto. intros; lia.
Qed.

(** the calls succeed if the solvers do *)
Lemma body_total : forall t st, (t < N)%nat -> binv t st ->
  (forall q ts, length q = n -> length ts = n -> exists h, transformPoint es reversed q ts = Some h) ->
  (forall rhs h, st_solve s rhs h <> None) -> branch_body es reversed s N t st <> None.
Proof.
  intros t st Ht (IT & I0 & I1 & IR & _) TOT SV.
  destruct (IR t ltac:(lia)) as [Q Q'].
  destruct (nth_error sols0 t) as [q|] eqn:Eq; [|apply nth_error_None in Eq; fold N in Eq; lia].
  destruct (nth_error rhs0 t) as [rhs|] eqn:Er; [|apply nth_error_None in Er; lia].
  unfold branch_body. rewrite Q, Q'.
  assert (Lq : length q = n) by (apply LQ; eapply nth_error_In; eauto).
  assert (LT : length (k_terms st) = n). { rewrite IT. destruct t; cbn; rewrite ?mark_length; auto. }
  destruct (TOT q (k_terms st) Lq LT) as [h ->].
  destruct (st_solve s rhs h) as [[flag locs]|] eqn:E; [|destruct (SV _ _ E)].
  destruct SOK as (MP & IDNE & CT). destruct (CT _ _ _ _ E) as [LL LI]. fold m in MP, LL.
  assert (SL : (N <= length (k_sols st) <= N * m)%nat /\ length (k_rhs st) = length (k_sols st)).
  { destruct t; [destruct (I0 eq_refl)|destruct (I1 ltac:(lia))]; nia. }
  assert (NE : locs <> []). { intro K. rewrite K in LL. cbn in LL. lia. }
  rewrite LL. destruct (Nat.ltb 1 m) eqn:M1.
  - apply Nat.ltb_lt in M1.
    destruct (replicate_spec _ (m - 1) (t + N) N q (resize (k_sols st) (N * m) [])) as (a & -> & La & A1 & A2); auto.
    { rewrite resize_length. nia. }
    destruct (replicate_spec _ (m - 1) (t + N) N rhs (resize (k_rhs st) (N * m) fid)) as (b & -> & Lb & B1 & B2); auto.
    { rewrite resize_length. nia. }
    destruct (store_all_ok ids locs t N a (k_terms st) q) as (sols' & -> & _); auto; try discriminate.
    intros [|k] Hk.
    + rewrite Nat.mul_0_r, Nat.add_0_r, A2 by (intros; nia). rewrite resize_nth by nia. auto.
    + replace (t + N * S k)%nat with (t + N + N * k)%nat by nia. apply A1. lia.
  - apply Nat.ltb_ge in M1.
    destruct (store_all_ok ids locs t N (k_sols st) (k_terms st) q) as (sols' & -> & _); auto; try discriminate.
    intros k Hk. replace k with O by lia. rewrite Nat.mul_0_r, Nat.add_0_r; auto.
Qed.
Lemma loop_total : forall d t st, (t + d = N)%nat -> binv t st ->
  (forall q ts, length q = n -> length ts = n -> exists h, transformPoint es reversed q ts = Some h) ->
  (forall rhs h, st_solve s rhs h <> None) -> branch_loop es reversed s N (seq t d) st <> None.
Proof.
  induction d as [|d IH]; intros t st E I TOT SV; cbn; [discriminate|].
  destruct (branch_body es reversed s N t st) as [st1|] eqn:B.
  - apply IH; auto; [lia|]. eapply body_inv; eauto. lia.
  - exfalso. eapply body_total; [| exact I | exact TOT | exact SV | exact B]. lia.
Qed.
End Branches.
End Facts.
