(** Proofs about the closed-form inverse kinematics: frames, and the whole algorithm. *)
From Coq Require Import Reals Lra List Bool Lia Arith.
From Verif Require Import Kdl KdlFacts Screw ScrewFacts Trig Subproblems IkProblem IkSpec IkProblemFacts.
Import ListNotations.
Open Scope R_scope.
Local Notation S := Datatypes.S.

Lemma nth_error_combine : forall A B (l1 : list A) (l2 : list B) i a b,
  nth_error l1 i = Some a -> nth_error l2 i = Some b -> nth_error (combine l1 l2) i = Some (a, b).
Proof.
  induction l1 as [|x l1 IH]; intros [|y l2] [|i] a b H1 H2; cbn in *; try discriminate; auto. congruence.
Qed.
Lemma nth_error_map' : forall A B (f : A -> B) l i a, nth_error l i = Some a -> nth_error (map f l) i = Some (f a).
Proof. intros. apply map_nth_error. auto. Qed.
Lemma nth_error_lt : forall A (l : list A) i a, nth_error l i = Some a -> (i < length l)%nat.
Proof. intros. apply nth_error_Some. congruence. Qed.
Lemma nth_error_ex : forall A (l : list A) i, (i < length l)%nat -> exists a, nth_error l i = Some a.
Proof. intros A l i H. destruct (nth_error l i) eqn:E; eauto. apply nth_error_None in E. lia. Qed.

(** ** Numbering of the branches *)
Lemma paths_app : forall ss s ids, paths (ss ++ [(s, ids)]) = (paths ss * st_count s)%nat.
Proof.
  unfold paths. induction ss as [|x ss IH]; intros; cbn [app fold_right fst]; [lia|]. rewrite IH. lia.
Qed.
Lemma count_paths : forall (l : list (step * list nat)) k,
  fold_left (fun n s => (n * st_count s)%nat) (map fst l) k = (k * paths l)%nat.
Proof.
  unfold paths. induction l as [|y l IH]; intros k; cbn [map fold_left fold_right]; [lia|]. rewrite IH. lia.
Qed.
Lemma choices_shift : forall ss j k, (forall s ids, In (s, ids) ss -> (1 <= st_count s)%nat) ->
  choices ss (j + paths ss * k) = choices ss j.
Proof.
  induction ss as [|[s ids] ss IH]; intros j k P; cbn [choices paths fold_right fst]; auto.
  assert (M : (1 <= st_count s)%nat) by (eapply P; left; eauto). fold (paths ss).
  replace (j + st_count s * paths ss * k)%nat with (j + (paths ss * k) * st_count s)%nat by lia.
  rewrite Nat.mod_add, Nat.div_add by lia. f_equal. apply IH. intros; eapply P; right; eauto.
Qed.
Lemma choices_app : forall ss s ids c, (forall s ids, In (s, ids) ss -> (1 <= st_count s)%nat) ->
  choices (ss ++ [(s, ids)]) c = choices ss c ++ [((c / paths ss) mod st_count s)%nat].
Proof.
  induction ss as [|[s0 i0] ss IH]; intros s ids c P; cbn [choices app paths fold_right fst].
  - rewrite Nat.div_1_r. reflexivity.
  - assert (M : (1 <= st_count s0)%nat) by (eapply P; left; eauto). fold (paths ss).
    rewrite IH by (intros; eapply P; right; eauto). rewrite Nat.div_div; [reflexivity|lia|].
    enough (1 <= paths ss)%nat by lia. clear - P. assert (forall s ids, In (s, ids) ss -> (1 <= st_count s)%nat) by (intros; eapply P; right; eauto).
    clear P. induction ss as [|[s i] ss IH]; cbn; [lia|]. fold (paths ss). assert (1 <= st_count s)%nat by (eapply H; left; eauto).
    assert (1 <= paths ss)%nat by (apply IH; intros; eapply H; right; eauto). nia.
Qed.
Lemma paths_pos : forall ss, (forall s ids, In (s, ids) ss -> (1 <= st_count s)%nat) -> (1 <= paths ss)%nat.
Proof.
  induction ss as [|[s i] ss IH]; intros H; cbn; [lia|]. fold (paths ss). assert (1 <= st_count s)%nat by (eapply H; left; eauto).
  assert (1 <= paths ss)%nat by (apply IH; intros; eapply H; right; eauto). nia.
Qed.
Lemma choices_zero : forall ss j, (forall s ids, In (s, ids) ss -> (1 <= st_count s)%nat) -> (j < paths ss)%nat ->
  (forallb (Nat.eqb 0) (choices ss j) = true <-> j = O).
Proof.
  induction ss as [|[s i] ss IH]; intros j P L; cbn [choices paths fold_right fst] in *.
  - cbn. split; auto. lia.
  - fold (paths ss) in *. assert (M : (1 <= st_count s)%nat) by (eapply P; left; eauto).
    change (forallb (Nat.eqb 0) ((j mod st_count s)%nat :: choices ss (j / st_count s)))
      with (Nat.eqb 0 (j mod st_count s) && forallb (Nat.eqb 0) (choices ss (j / st_count s))).
    rewrite andb_true_iff, Nat.eqb_eq, IH; [|intros; eapply P; right; eauto|apply Nat.div_lt_upper_bound; lia].
    split.
    + intros [A B]. rewrite (Nat.div_mod j (st_count s)) by lia. lia.
    + intros ->. rewrite Nat.mod_0_l, Nat.div_0_l by lia. auto.
Qed.

Section Facts2.
Variable p : poe.
Variable reversed : bool.
Variable target : frame.
Local Notation es := (exps p).
Local Notation n := (length (exps p)).
Hypothesis POK : poe_ok p.

Notation displ := (displ p reversed).
Notation product := (product p reversed).
Notation goal := (goal p reversed target).

Lemma displ_rigid : forall q i, (i < n)%nat -> rigid (displ q i).
Proof.
  intros q i H. apply asFrame_rigid. destruct POK as [F _]. rewrite Forall_forall in F. apply F. apply nth_In. exact H.
Qed.
Lemma product_cons : forall q lo len, product q lo (S len) = fmul (displ q lo) (product q (S lo) len).
Proof. reflexivity. Qed.
Lemma product_app : forall q len1 lo len2, product q lo (len1 + len2) = fmul (product q lo len1) (product q (lo + len1) len2).
Proof.
  intros q. induction len1 as [|len1 IH]; intros lo len2; cbn [plus].
  - change (product q lo 0) with fid. rewrite fmul_id_l, Nat.add_0_r. reflexivity.
  - rewrite !product_cons, IH, fmul_assoc. do 3 f_equal. lia.
Qed.
Lemma product_rigid : forall q len lo, (lo + len <= n)%nat -> rigid (product q lo len).
Proof.
  intros q. induction len as [|len IH]; intros lo H; [apply rigid_id|]. rewrite product_cons.
  apply rigid_mul; [apply displ_rigid; lia | apply IH; lia].
Qed.
Lemma displ_ext : forall q q' i, nth (slot p reversed i) q 0 = nth (slot p reversed i) q' 0 -> displ q i = displ q' i.
Proof. intros q q' i H. unfold IkSpec.displ. rewrite H. reflexivity. Qed.
Lemma product_ext : forall q q' len lo, (forall i, (lo <= i < lo + len)%nat -> displ q i = displ q' i) ->
  product q lo len = product q' lo len.
Proof.
  intros q q'. induction len as [|len IH]; intros lo H; [reflexivity|]. rewrite !product_cons, H, IH; auto; [|lia]. intros; apply H; lia.
Qed.

(** ** Classification of the terms *)
Definition cls (K : list nat) (a : nat) (c : bool) (i : nat) : term :=
  if in_dec Nat.eq_dec i K then (if Nat.ltb i a || (c && Nat.eqb i (n - 1)%nat) then COMPUTED else KNOWN) else UNKNOWN.
Definition Tr (K : list nat) (a : nat) (c : bool) (ts : list term) : Prop :=
  length ts = n /\ forall i, (i < n)%nat -> nth_error ts i = Some (cls K a c i).

Lemma Tr_mark : forall K a c ts ids, Tr K a c ts -> (forall i, (i < a)%nat -> In i K) -> (c = true -> In (n - 1)%nat K) ->
  (forall i, In i ids -> ~ In i K) -> Tr (K ++ ids) a c (mark ids ts).
Proof.
  intros K a c ts ids [L T] HA HC D. split; [rewrite mark_length; auto|]. intros i Hi.
  rewrite mark_nth by lia. rewrite T by auto. unfold cls.
  destruct (in_dec Nat.eq_dec i ids) as [I|I]; destruct (in_dec Nat.eq_dec i (K ++ ids)) as [J|J];
    destruct (in_dec Nat.eq_dec i K) as [k|k]; auto; try (exfalso; rewrite in_app_iff in J; tauto); try (exfalso; apply (D i); auto; fail).
  f_equal. destruct (Nat.ltb i a) eqn:A; cbn.
  - apply Nat.ltb_lt in A. destruct k. auto.
  - destruct c; cbn; auto. destruct (Nat.eqb i (n - 1)%nat) eqn:B; auto. apply Nat.eqb_eq in B. subst. destruct k. auto.
Qed.

(** ** transformPoint *)
Lemma transform_total : forall q ts, length q = n -> length ts = n -> exists h, transformPoint es reversed q ts = Some h.
Proof.
  intros q ts Lq Lt. unfold transformPoint. rewrite Lt.
  assert (G : forall t h fk fu, (t <= n)%nat -> exists h', transform_loop es reversed t q ts h fk fu = Some h').
  { induction t as [|t IH]; intros h fk fu H; cbn [transform_loop]; eauto.
    destruct (nth_error_ex _ ts t ltac:(lia)) as [x ->]. destruct x.
    - rewrite (exp_some p t) by lia. rewrite (getTheta_some p) by lia. apply IH. lia.
    - destruct (fk || fu); eauto. apply IH. lia.
    - destruct fk; eauto. apply IH. lia. }
  apply G. auto.
Qed.

Section TP.
Variable K : list nat.
Variable q : list R.
Variable ts : list term.
Variables a b : nat.
Variable c : bool.
Hypothesis T : Tr K a c ts.
Hypothesis Lq : length q = n.
Hypothesis B : b = if c then (n - 1)%nat else n.
Hypothesis HA : forall i, (i < a)%nat -> In i K.
Hypothesis HC : c = true -> In (n - 1)%nat K.
Hypothesis AB : (a < b)%nat.

Lemma b_le : (b <= n)%nat. Proof. rewrite B. destruct c; lia. Qed.
Lemma cls_mid : forall i, (a <= i < b)%nat -> cls K a c i = if in_dec Nat.eq_dec i K then KNOWN else UNKNOWN.
Proof.
  intros i H. unfold cls. destruct (in_dec Nat.eq_dec i K); auto.
  replace (Nat.ltb i a) with false by (symmetry; apply Nat.ltb_ge; lia). cbn.
  destruct c; cbn; auto. replace (Nat.eqb i (n - 1)%nat) with false; auto. symmetry. apply Nat.eqb_neq. lia.
Qed.
Lemma cls_low : forall i, (i < a)%nat -> cls K a c i = COMPUTED.
Proof.
  intros i H. unfold cls. destruct (in_dec Nat.eq_dec i K) as [|N]; [|destruct N; auto].
  replace (Nat.ltb i a) with true by (symmetry; apply Nat.ltb_lt; lia). reflexivity.
Qed.
Lemma step_known : forall i h fk fu, (a <= i < b)%nat -> In i K ->
  transform_loop es reversed (S i) q ts h fk fu = transform_loop es reversed i q ts (fmul (displ q i) h) true fu.
Proof.
  intros i h fk fu H I. cbn [transform_loop]. pose proof b_le. destruct T as [_ T']. rewrite T' by lia. rewrite cls_mid by auto.
  destruct (in_dec Nat.eq_dec i K); [|tauto].
  rewrite (exp_some p i) by lia. rewrite (getTheta_some p) by lia. reflexivity.
Qed.

Lemma phase2 : forall t hi h fu, (a <= t < hi)%nat -> (hi <= b)%nat -> (forall i, (t <= i < hi)%nat -> In i K) ->
  h = product q t (hi - t) ->
  exists lo, (a <= lo < hi)%nat /\ (forall i, (lo <= i < hi)%nat -> In i K) /\ (lo = a \/ ~ In (lo - 1)%nat K) /\
    transform_loop es reversed t q ts h true fu = Some (product q lo (hi - lo)).
Proof.
  pose proof b_le as BL. induction t as [|t IH]; intros hi h fu H1 H2 KN E.
  - exists O. repeat split; auto; try lia. cbn. rewrite E. reflexivity.
  - destruct (Nat.eq_dec (S t) a) as [EA|NA].
    + exists a. repeat split; auto; try lia. { intros; apply KN; lia. }
      cbn [transform_loop]. destruct T as [_ T']. rewrite T' by lia. rewrite cls_low by lia. cbn. rewrite E, EA. reflexivity.
    + destruct (in_dec Nat.eq_dec t K) as [I|I].
      * rewrite step_known by (auto; lia). destruct (IH hi (fmul (displ q t) h) fu) as (lo & P1 & P2 & P3 & P4); auto; try lia.
        { intros i Hi. destruct (Nat.eq_dec i t) as [->|]; auto. apply KN. lia. }
        { replace (hi - t)%nat with (S (hi - S t)) by lia. rewrite product_cons, E. reflexivity. }
        exists lo. auto.
      * exists (S t). repeat split; auto; try lia. { right. replace (S t - 1)%nat with t by lia. auto. }
        cbn [transform_loop]. destruct T as [_ T']. rewrite T' by lia. rewrite cls_mid by lia.
        destruct (in_dec Nat.eq_dec t K); [tauto|]. rewrite E. reflexivity.
Qed.
Lemma phase1 : forall t fu, (a <= t <= b)%nat -> (forall i, (t <= i < b)%nat -> ~ In i K) -> ((t < b)%nat -> fu = true) ->
  exists h, transform_loop es reversed t q ts fid false fu = Some h /\ point_of p reversed K q a b h.
Proof.
  pose proof b_le as BL. induction t as [|t IH]; intros fu H1 U F.
  - exists fid. split; auto. left. split; auto. intros; apply U; lia.
  - destruct (Nat.eq_dec (S t) a) as [EA|NA].
    + cbn [transform_loop]. destruct T as [_ T']. rewrite T' by lia. rewrite cls_low by lia. rewrite F by lia. cbn.
      exists fid. split; auto. left. split; auto. intros; apply U; lia.
    + destruct (in_dec Nat.eq_dec t K) as [I|I].
      * rewrite step_known by (auto; lia).
        destruct (phase2 t (S t) (fmul (displ q t) fid) fu) as (lo & P1 & P2 & P3 & P4); try lia.
        { intros i Hi. replace i with t by lia. auto. }
        { replace (S t - t)%nat with 1%nat by lia. rewrite product_cons. reflexivity. }
        exists (product q lo (S t - lo)). split; auto. right. exists lo, (S t). repeat split; auto; try lia.
      * cbn [transform_loop]. destruct T as [_ T']. rewrite T' by lia. rewrite cls_mid by lia.
        destruct (in_dec Nat.eq_dec t K); [tauto|]. apply IH; [lia| |auto].
        intros i Hi. destruct (Nat.eq_dec i t) as [->|]; auto. apply U. lia.
Qed.
Lemma transform_spec : exists h, transformPoint es reversed q ts = Some h /\ point_of p reversed K q a b h.
Proof.
  unfold transformPoint. pose proof T as [LT T']. rewrite LT. pose proof b_le as BL.
  assert (EC : c = true \/ c = false) by (destruct c; auto). destruct EC as [EC|EC].
  - assert (b = (n - 1)%nat) by (rewrite B, EC; reflexivity). assert (H1 : n = S b) by lia. rewrite H1. cbn [transform_loop]. rewrite T' by lia.
    unfold cls. destruct (in_dec Nat.eq_dec b K) as [|NI]. 2:{ destruct NI. rewrite H. apply HC. auto. }
    replace (Nat.eqb b (n - 1)%nat) with true by (symmetry; apply Nat.eqb_eq; lia). rewrite EC, andb_true_l, orb_true_r. cbn [orb].
    apply phase1; [lia | intros; lia | lia].
  - assert (H1 : b = n) by (rewrite B, EC; reflexivity). rewrite <- H1. apply phase1; [lia | intros; lia | lia].
Qed.
End TP.

(** ** recalculateFrames *)
Lemma mul_frames_ok : forall i sols fs, (i < n)%nat -> (forall q, In q sols -> length q = n) -> length fs = length sols ->
  mul_frames es reversed i sols fs = Some (map (fun qf => fmul (snd qf) (displ (fst qf) i)) (combine sols fs)).
Proof.
  intros i. induction sols as [|q sols IH]; intros [|f fs] H L E; cbn in *; try discriminate; auto.
  rewrite (exp_some p i) by auto. rewrite (getTheta_some p) by (auto; apply L; auto). rewrite IH; auto.
Qed.

Section Recalc.
Variable sols : list (list R).
Hypothesis LQ : forall q, In q sols -> length q = n.
Variable K : list nat.
Variable a : nat.
Hypothesis FU : first_unknown p K a.

Definition framesAre (fs : list frame) (g : list R -> frame) : Prop :=
  length fs = length sols /\ forall j q, nth_error sols j = Some q -> nth_error fs j = Some (g q).

Lemma framesAre_mul : forall fs g i, (i < n)%nat -> framesAre fs g ->
  exists fs', mul_frames es reversed i sols fs = Some fs' /\ framesAre fs' (fun q => fmul (g q) (displ q i)).
Proof.
  intros fs g i Hi [L G]. rewrite mul_frames_ok by auto. eexists. split; [reflexivity|]. split.
  - rewrite map_length, combine_length. lia.
  - intros j q Q. erewrite nth_error_map'; [|apply nth_error_combine; [exact Q | apply G; exact Q]]. reflexivity.
Qed.
Lemma framesAre_ext : forall fs g g', (forall q, In q sols -> g q = g' q) -> framesAre fs g -> framesAre fs g'.
Proof. intros fs g g' E [L G]. split; auto. intros j q Q. rewrite <- E; auto. eapply nth_error_In; eauto. Qed.

Lemma Tr_bump : forall a0 c ts, Tr K a0 c ts -> (a0 < a)%nat -> Tr K (S a0) c (put ts a0 COMPUTED).
Proof.
  intros a0 c ts [L T] H. destruct FU as (F1 & F2 & F3). split; [rewrite put_length; auto|]. intros i Hi.
  destruct (Nat.eq_dec a0 i) as [<-|NE].
  - rewrite put_same by lia. unfold cls. destruct (in_dec Nat.eq_dec a0 K) as [|N]; [|destruct N; apply F3; lia].
    replace (Nat.ltb a0 (S a0)) with true by (symmetry; apply Nat.ltb_lt; lia). reflexivity.
  - rewrite put_other by auto. rewrite T by auto. unfold cls. destruct (in_dec Nat.eq_dec i K); auto.
    replace (Nat.ltb i (S a0)) with (Nat.ltb i a0); auto.
    destruct (Nat.ltb i a0) eqn:E1; destruct (Nat.ltb i (S a0)) eqn:E2; auto; rewrite ?Nat.ltb_lt, ?Nat.ltb_ge in *; lia.
Qed.

Lemma fwd_loop : forall d a0 c ts fs g has fuel, (a0 + d = a)%nat -> Tr K a0 c ts -> framesAre fs g -> (d < fuel)%nat ->
  exists fs' ts', recalc_loop es reversed false fuel a0 sols fs ts has = Some (fs', ts', has || Nat.ltb 0 d) /\
    framesAre fs' (fun q => fmul (g q) (product q a0 d)) /\ Tr K a c ts'.
Proof.
  destruct FU as (F1 & F2 & F3).
  induction d as [|d IH]; intros a0 c ts fs g has [|fuel] E T G FL; try lia; cbn [recalc_loop].
  - destruct T as [L T]. rewrite L. replace (Nat.ltb a0 n) with true by (symmetry; apply Nat.ltb_lt; lia).
    rewrite T by lia. unfold cls. destruct (in_dec Nat.eq_dec a0 K) as [I|I]; [exfalso; replace a0 with a in I by lia; auto|].
    exists fs, ts. rewrite orb_false_r. split; auto. split.
    + eapply framesAre_ext; [|exact G]. intros. change (product q a0 0) with fid. rewrite fmul_id_r. auto.
    + replace a with a0 by lia. split; auto.
  - pose proof T as [L T']. rewrite L. replace (Nat.ltb a0 n) with true by (symmetry; apply Nat.ltb_lt; lia).
    rewrite T' by lia. unfold cls. destruct (in_dec Nat.eq_dec a0 K) as [I|I]; [|exfalso; apply I, F3; lia].
    replace (Nat.ltb a0 a0) with false by (symmetry; apply Nat.ltb_ge; lia).
    replace (Nat.eqb a0 (n - 1)%nat) with false by (symmetry; apply Nat.eqb_neq; lia). rewrite andb_false_r. cbn [orb].
    destruct (framesAre_mul fs g a0 ltac:(lia) G) as (fs1 & -> & G1). rewrite upd_put by lia.
    destruct (IH (S a0) c (put ts a0 COMPUTED) fs1 _ true fuel ltac:(lia) (Tr_bump a0 c ts T ltac:(lia)) G1 ltac:(lia)) as (fs' & ts' & R & G2 & T2).
    exists fs', ts'. rewrite R. split; [|split; auto].
    + destruct has; cbn [orb]; f_equal; f_equal; cbn; destruct d; reflexivity.
    + eapply framesAre_ext; [|exact G2]. intros. cbn beta. rewrite product_cons, fmul_assoc. reflexivity.
Qed.
Lemma fwd_skip : forall d i a0 c ts fs has fuel, (i + d = a0)%nat -> (a0 <= a)%nat -> Tr K a0 c ts -> (d < fuel)%nat ->
  recalc_loop es reversed false fuel i sols fs ts has = recalc_loop es reversed false (fuel - d) a0 sols fs ts has.
Proof.
  destruct FU as (F1 & F2 & F3).
  induction d as [|d IH]; intros i a0 c ts fs has [|fuel] E LA T FL; try lia.
  - replace i with a0 by lia. rewrite Nat.sub_0_r. reflexivity.
  - cbn [recalc_loop Nat.sub]. pose proof T as [L T']. rewrite L. replace (Nat.ltb i n) with true by (symmetry; apply Nat.ltb_lt; lia).
    rewrite T' by lia. unfold cls. destruct (in_dec Nat.eq_dec i K) as [I|I]; [|exfalso; apply I, F3; lia].
    replace (Nat.ltb i a0) with true by (symmetry; apply Nat.ltb_lt; lia). cbn [orb].
    eapply IH; eauto; lia.
Qed.
Lemma repeat_fid : framesAre (repeat fid (length sols)) (fun _ => fid).
Proof.
  split; [apply repeat_length|]. intros j q Q. apply nth_error_lt in Q. apply nth_error_repeat; auto.
Qed.
Lemma fwd_dir : forall a0 c ts, (a0 <= a)%nat -> Tr K a0 c ts ->
  exists fs' ts', recalc_dir es reversed false sols ts = Some (fs', ts', Nat.ltb a0 a) /\
    framesAre fs' (fun q => product q a0 (a - a0)) /\ Tr K a c ts'.
Proof.
  intros a0 c ts H T. unfold recalc_dir. pose proof T as [L _]. destruct FU as (F1 & F2 & F3).
  rewrite (fwd_skip a0 O a0 c) by (auto; lia).
  destruct (fwd_loop (a - a0) a0 c ts (repeat fid (length sols)) _ false (S (length ts) - a0) ltac:(lia) T repeat_fid ltac:(lia)) as (fs' & ts' & R & G & T2).
  exists fs', ts'. rewrite R. split; [|split; auto].
  - cbn [orb]. do 2 f_equal. destruct (Nat.ltb a0 a) eqn:E1; destruct (Nat.ltb 0 (a - a0)) eqn:E2; auto; rewrite ?Nat.ltb_lt, ?Nat.ltb_ge in *; lia.
  - eapply framesAre_ext; [|exact G]. intros. apply fmul_id_l.
Qed.
Lemma bwd_dir : forall c ts, Tr K a c ts -> (c = true -> In (n - 1)%nat K) ->
  exists fs' ts' has c', recalc_dir es reversed true sols ts = Some (fs', ts', has) /\
    Tr K a c' ts' /\ (c' = true <-> In (n - 1)%nat K) /\
    ((has = false /\ c' = c) \/ (has = true /\ c' = true /\ c = false /\ framesAre fs' (fun q => displ q (n - 1)%nat))).
Proof.
  intros c ts T HC. unfold recalc_dir. destruct FU as (F1 & F2 & F3). pose proof T as [L T'].
  cbn [recalc_loop]. rewrite L. replace (Nat.ltb 0 n) with true by (symmetry; apply Nat.ltb_lt; lia).
  replace (n - 1 - 0)%nat with (n - 1)%nat by lia. rewrite T' by lia. unfold cls.
  destruct (in_dec Nat.eq_dec (n - 1)%nat K) as [I|I].
  - assert (AN : (a < n - 1)%nat). { assert (a <> n - 1)%nat by (intros ->; auto). lia. }
    replace (Nat.ltb (n - 1)%nat a) with false by (symmetry; apply Nat.ltb_ge; lia). rewrite Nat.eqb_refl, andb_true_r. cbn [orb].
    destruct c.
    + assert (NN : n = S (n - 1)%nat) by lia. exists (repeat fid (length sols)), ts, false, true.
      split; [|split; [exact T|split; [tauto|left; auto]]].
      replace (recalc_loop es reversed true n (S (n - 1)%nat) sols (repeat fid (length sols)) ts false)
        with (recalc_loop es reversed true (S (n - 1)%nat) n sols (repeat fid (length sols)) ts false) by (f_equal; lia).
      cbn [recalc_loop]. rewrite L, Nat.ltb_irrefl. reflexivity.
    + destruct (framesAre_mul _ _ (n - 1)%nat ltac:(lia) repeat_fid) as (fs1 & -> & G1). rewrite upd_put by lia.
      exists fs1, (put ts (n - 1)%nat COMPUTED), true, true. split; [|split; [|split; [tauto|right; repeat split; auto]]].
      * replace (recalc_loop es reversed true n (S (n - 1)%nat) sols fs1 (put ts (n - 1)%nat COMPUTED) true)
          with (recalc_loop es reversed true (S (n - 1)%nat) n sols fs1 (put ts (n - 1)%nat COMPUTED) true) by (f_equal; lia).
        cbn [recalc_loop]. rewrite put_length, L, Nat.ltb_irrefl. reflexivity.
      * split; [rewrite put_length; auto|]. intros i Hi. destruct (Nat.eq_dec (n - 1)%nat i) as [<-|NE].
        -- rewrite put_same by lia. unfold cls. destruct (in_dec Nat.eq_dec (n - 1)%nat K); [|tauto]. rewrite Nat.eqb_refl. cbn.
           rewrite orb_true_r. reflexivity.
        -- rewrite put_other by auto. rewrite T' by auto. unfold cls. destruct (in_dec Nat.eq_dec i K); auto.
           replace (Nat.eqb i (n - 1)%nat) with false by (symmetry; apply Nat.eqb_neq; lia). rewrite andb_false_r. reflexivity.
      * apply G1.
      * intros j q Q. destruct G1 as [_ G1]. rewrite (G1 _ _ Q), fmul_id_l. reflexivity.
  - exists (repeat fid (length sols)), ts, false, c. split; auto. split; auto. split; [|left; auto].
    split; auto.
Qed.

Definition RR (a : nat) (c : bool) (q : list R) : frame :=
  fmul (finv (product q 0 a)) (if c then fmul goal (finv (displ q (n - 1)%nat)) else goal).

Lemma map_combine_frames : forall fs rhs g h (f : frame * frame -> frame), framesAre fs g -> framesAre rhs h ->
  framesAre (map f (combine fs rhs)) (fun q => f (g q, h q)).
Proof.
  intros fs rhs g h f [L1 G1] [L2 G2]. split; [rewrite map_length, combine_length; lia|].
  intros j q Q. erewrite nth_error_map'; [|apply nth_error_combine; [apply G1; eauto | apply G2; eauto]]. reflexivity.
Qed.

Lemma recalc_spec : forall a0 c ts rhs, (a0 <= a)%nat -> Tr K a0 c ts -> (c = true -> In (n - 1)%nat K) -> framesAre rhs (RR a0 c) ->
  exists rhs' ts' c', recalculateFrames es reversed sols rhs ts = Some (rhs', ts') /\
    Tr K a c' ts' /\ (c' = true <-> In (n - 1)%nat K) /\ framesAre rhs' (RR a c').
Proof.
  intros a0 c ts rhs LA T HC G. unfold recalculateFrames. destruct FU as (F1 & F2 & F3).
  destruct (fwd_dir a0 c ts LA T) as (pre & ts1 & -> & GP & T1).
  set (rhs1 := if Nat.ltb a0 a then _ else rhs).
  assert (G1 : framesAre rhs1 (RR a c)).
  { unfold rhs1. destruct (Nat.ltb a0 a) eqn:E.
    - eapply framesAre_ext; [|apply map_combine_frames; [exact GP | exact G]]. intros q Q. cbn [fst snd]. unfold RR.
      rewrite <- fmul_assoc. f_equal. rewrite <- finv_fmul.
      + f_equal. replace a with (a0 + (a - a0))%nat at 2 by lia. rewrite product_app. reflexivity.
      + apply product_rigid. lia.
      + apply product_rigid. lia.
    - apply Nat.ltb_ge in E. replace a with a0 by lia. exact G. }
  destruct (bwd_dir c ts1 T1 HC) as (post & ts2 & has & c' & -> & T2 & HC' & ALT).
  eexists _, ts2, c'. split; [reflexivity|]. split; auto. split; auto.
  destruct ALT as [[-> ->]|(-> & -> & -> & GQ)]; auto.
  eapply framesAre_ext; [|apply map_combine_frames; [exact GQ | exact G1]]. intros q Q. cbn [fst snd]. unfold RR.
  rewrite fmul_assoc. reflexivity.
Qed.
End Recalc.

(** ** The whole algorithm *)
Definition inv (ss : list (step * list nat)) (st : ik_state) : Prop :=
  let K := concat (map snd ss) in
  (exists a0 c0, Tr K a0 c0 (k_terms st) /\ (forall i, (i < a0)%nat -> In i K) /\ (c0 = true -> In (n - 1)%nat K) /\
     framesAre (k_sols st) (k_rhs st) (RR a0 c0)) /\
  length (k_sols st) = paths ss /\
  (forall q, In q (k_sols st) -> length q = n /\ forall i, (i < n)%nat -> ~ In i K -> nth (slot p reversed i) q 0 = 0) /\
  exists bs, length bs = paths ss /\ k_reach st = forallb (fun b => b) bs /\
    forall j q, nth_error (k_sols st) j = Some q -> derived p reversed target code_marks ss (choices ss j) q (nth j bs true).

Lemma nth_repeat0 : forall k i, nth i (repeat 0 k) 0 = 0.
Proof. induction k; intros [|i]; cbn; auto. Qed.

Lemma inv_start : inv [] (ik_init p reversed target).
Proof.
  unfold ik_init. split; [|split; [|split]]; cbn [k_sols k_rhs k_terms k_reach map concat].
  - exists O, false. split; [|split; [intros; lia|split; [discriminate|]]].
    + split; [rewrite repeat_length; auto|]. intros i Hi. rewrite nth_error_repeat by auto. unfold cls.
      destruct (in_dec Nat.eq_dec i []) as [[]|]. reflexivity.
    + split; auto. intros [|j] q Q; cbn in *; [|destruct j; discriminate]. unfold RR. change (product q 0 0) with fid.
      rewrite finv_id, fmul_id_l. reflexivity.
  - reflexivity.
  - intros q [<-|[]]. split; [apply repeat_length|]. intros. apply nth_repeat0.
  - exists [true]. repeat split; auto. intros [|j] q Q; cbn in *; [|destruct j; discriminate]. injection Q as <-. apply dv_start.
Qed.

Lemma first_unknown_ex : forall K i, (i < n)%nat -> ~ In i K -> exists a, first_unknown p K a /\ (a <= i)%nat.
Proof.
  intros K. induction i as [i IH] using (well_founded_induction lt_wf). intros Hi NI.
  destruct (Forall_Exists_dec (fun j => In j K) (fun j => in_dec Nat.eq_dec j K) (seq 0 i)) as [F|E].
  - exists i. split; auto. repeat split; auto. intros j Hj. rewrite Forall_forall in F. apply F. apply in_seq. lia.
  - apply Exists_exists in E as (j & J & NJ). apply in_seq in J. destruct (IH j) as (a & FA & LA); auto; try lia. exists a. split; auto. lia.
Qed.

Lemma assign_other : forall loc q i, (forall k, In k (map fst loc) -> (k < n)%nat) -> (i < n)%nat -> ~ In i (map fst loc) ->
  nth (slot p reversed i) (assign p reversed loc q) 0 = nth (slot p reversed i) q 0.
Proof.
  induction loc as [|[id th] loc IH]; intros q i B Hi N; [reflexivity|]. rewrite assign_cons, IH; auto.
  - apply put_nth_other. intro E. apply slot_inj in E; auto; [|apply B; left; auto]. subst. apply N. left. auto.
  - intros k Hk. apply B. right. auto.
  - intro I. apply N. right. auto.
Qed.

Lemma step_inv : forall ss s ids first st st',
  inv ss st -> step_ok s ids -> (forall i, In i ids -> (i < n)%nat /\ ~ In i (concat (map snd ss))) ->
  (forall s ids, In (s, ids) ss -> (1 <= st_count s)%nat) ->
  (first = true -> ss = []) ->
  step_body es reversed first s st = Some st' -> inv (ss ++ [(s, ids)]) st'.
Proof.
  intros ss s ids first st st' I SOK IDS POS FST H. unfold step_body in H.
  destruct I as ((a0 & c0 & T & A0 & C0 & G) & LS & ZQ & bs & LB & RE & DV).
  set (K := concat (map snd ss)) in *.
  assert (ID0 : exists i, In i ids). { destruct SOK as (_ & NE & _). destruct ids; [congruence|]. eexists; left; eauto. }
  destruct ID0 as [i0 I0]. destruct (IDS i0 I0) as [I0n I0K].
  destruct (first_unknown_ex K i0 I0n I0K) as (a & FU & _).
  assert (LA : (a0 <= a)%nat). { destruct FU as (_ & NA & _). destruct (Nat.le_gt_cases a0 a); auto. destruct NA. apply A0. auto. }
  assert (LQ : forall q, In q (k_sols st) -> length q = n) by (intros; apply ZQ; auto).
  (* after recalculation *)
  assert (R : exists rhs ts c, (if first then Some (k_rhs st, k_terms st) else recalculateFrames es reversed (k_sols st) (k_rhs st) (k_terms st)) = Some (rhs, ts) /\
    Tr K a c ts /\ (c = true <-> In (n - 1)%nat K) /\ framesAre (k_sols st) rhs (RR a c)).
  { destruct first.
    - specialize (FST eq_refl). subst ss. cbn in K. exists (k_rhs st), (k_terms st), c0.
      assert (a0 = O). { destruct a0; auto. destruct (A0 O); lia. }
      assert (a = O). { destruct FU as (_ & _ & F3). destruct a; auto. destruct (F3 O); lia. }
      subst a0 a. repeat split; auto; try (apply T); try (apply G).
    - destruct (recalc_spec (k_sols st) LQ K a FU a0 c0 (k_terms st) (k_rhs st) LA T C0 G) as (rhs & ts & c & E & T' & C' & G').
      exists rhs, ts, c. auto. }
  destruct R as (rhs & ts & c & ER & T' & C' & G'). rewrite ER in H.
  assert (NPOS : (0 < length (k_sols st))%nat). { rewrite LS. pose proof (paths_pos ss POS). lia. }
  assert (IDB : forall i, In i ids -> (i < n)%nat) by (intros; apply IDS; auto).
  assert (BI : binv p reversed s ids (k_sols st) rhs ts (k_reach st) (length (k_sols st)) st').
  { eapply (loop_inv p reversed s ids SOK IDB (k_sols st) rhs ts (k_reach st) NPOS (proj1 G') (proj1 T') LQ (length (k_sols st)) O); auto.
    - apply binv_start; auto; first [apply G' | apply T'].
    - exact H. }
  destruct BI as (BT & _ & BL & _ & fls & LF & RE' & BR). rewrite LS in *.
  set (N := paths ss) in *. set (m := st_count s) in *.
  assert (MP : (1 <= m)%nat) by apply SOK.
  destruct (BL NPOS) as [L1 L2].
  assert (TS : k_terms st' = mark ids ts). { rewrite BT. unfold ts_of. destruct N; [lia|]. auto. }
  assert (FU' := FU). destruct FU' as (F1 & F2 & F3).
  set (b := if c then (n - 1)%nat else n).
  assert (AB : (a < b)%nat). { unfold b. destruct c; auto. assert (a <> n - 1)%nat by (intros ->; tauto). lia. }
  assert (RE2 : right_end p K b). { unfold b. destruct c; [left|right]; split; auto; [tauto|]. intro X. apply C' in X. discriminate. }
  assert (NK : forall k, (k < N * m)%nat -> exists j k', k = (j + N * k')%nat /\ (j < N)%nat /\ (k' < m)%nat).
  { intros k Hk. exists (k mod N)%nat, (k / N)%nat. split; [rewrite Nat.add_comm; apply Nat.div_mod; lia|]. split; [apply Nat.mod_upper_bound; lia|].
    apply Nat.div_lt_upper_bound; lia. }
  assert (DIV : forall j k, (j < N)%nat -> ((j + N * k) / N = k)%nat /\ ((j + N * k) mod N = j)%nat).
  { intros j k Hj. rewrite (Nat.mul_comm N k), Nat.div_add, Nat.mod_add, Nat.div_small, Nat.mod_small by lia. auto. }
  assert (KK : concat (map snd (ss ++ [(s, ids)])) = K ++ ids).
  { rewrite map_app, concat_app. cbn. rewrite app_nil_r. reflexivity. }
  assert (CAND : forall j k q', (j < N)%nat -> (k < m)%nat -> nth_error (k_sols st') (j + N * k) = Some q' ->
    exists q rr h flag locs loc, nth_error (k_sols st) j = Some q /\ rr = RR a c q /\
      point_of p reversed (code_marks (choices ss j) K ids) q a b h /\ st_solve s rr h = Some (flag, locs) /\
      nth_error locs k = Some loc /\ map fst loc = ids /\ q' = assign p reversed loc q /\ flag = nth j fls true /\
      nth_error (k_rhs st') (j + N * k) = Some rr).
  { intros j k q' Hj Hk Q'. destruct (BR j Hj) as (q & rr & h & locs & Q & RQ & TP & SV & LL & AS).
    destruct (nth_error_ex _ locs k ltac:(fold m in LL; rewrite LL; auto)) as [loc LK].
    destruct (AS _ _ LK) as [A1 A2]. rewrite LS in A1, A2. fold N in A1, A2.
    exists q, rr, h, (nth j fls true), locs, loc.
    assert (rr = RR a c q). { destruct G' as [_ G']. specialize (G' _ _ Q). congruence. }
    repeat split; auto; [|destruct SOK as (_ & _ & CT); destruct (CT _ _ _ _ SV) as [_ LI]; apply LI; eapply nth_error_In; eauto | congruence].
    assert (Lq : length q = n) by (apply LQ; eapply nth_error_In; eauto).
    unfold code_marks. destruct (forallb (Nat.eqb 0) (choices ss j)) eqn:Z.
    - apply choices_zero in Z; auto. subst j. cbn [ts_of] in TP.
      destruct (transform_spec K q ts a b c T' Lq eq_refl F3 (proj1 C') AB) as (h' & TP' & PO). congruence.
    - assert (j <> O). { intros ->. rewrite (proj2 (choices_zero ss O POS ltac:(auto))) in Z; auto. discriminate. }
      destruct j as [|j']; [congruence|]. cbn [ts_of] in TP.
      destruct (transform_spec (K ++ ids) q (mark ids ts) a b c) as (h' & TP' & PO); auto.
      + apply Tr_mark; auto. { tauto. } intros; apply IDS; auto.
      + intros. apply in_or_app. left. auto.
      + intro CC. apply in_or_app. left. tauto.
      + congruence. }
  assert (AGREE : forall loc q i, map fst loc = ids -> In i K -> (i < n)%nat -> displ (assign p reversed loc q) i = displ q i).
  { intros loc q i E IK Hi. apply displ_ext. apply assign_other; auto; rewrite E; auto. intro X. destruct (IDS i X). auto. }
  split; [|split; [|split]].
  - exists a, c. rewrite KK, TS. split; [apply Tr_mark; auto; [tauto | intros; apply IDS; auto]|].
    split; [intros; apply in_or_app; left; auto|]. split; [intro; apply in_or_app; left; tauto|].
    split; [congruence|]. intros jj q' Q'.
    destruct (NK jj) as (j & k & -> & Hj & Hk). { apply nth_error_lt in Q'. congruence. }
    destruct (CAND j k q' Hj Hk Q') as (q & rr & h & flag & locs & loc & Q & ERR & PO & SV & LK & EL & EQ & _ & RQ).
    rewrite RQ, ERR. f_equal. rewrite EQ. unfold RR. f_equal.
    + f_equal. apply product_ext. intros i Hi. symmetry. apply AGREE; auto; [apply F3; lia | lia].
    + destruct c; auto. f_equal. f_equal. symmetry. apply AGREE; auto; [tauto | lia].
  - rewrite paths_app. exact L1.
  - rewrite KK. intros q' IQ. apply In_nth_error in IQ as [jj Q'].
    destruct (NK jj) as (j & k & -> & Hj & Hk). { apply nth_error_lt in Q'. congruence. }
    destruct (CAND j k q' Hj Hk Q') as (q & rr & h & flag & locs & loc & Q & ERR & PO & SV & LK & EL & EQ & _ & RQ).
    assert (IQ : In q (k_sols st)) by (eapply nth_error_In; eauto). destruct (ZQ q IQ) as [Lq Zq].
    rewrite EQ. split; [rewrite assign_length; auto|]. intros i Hi NI. rewrite assign_other; auto.
    + apply Zq; auto. intro; apply NI, in_or_app; auto.
    + rewrite EL. auto.
    + rewrite EL. intro; apply NI, in_or_app; auto.
  - set (bs' := map (fun c => nth (c mod N) bs true && nth (c mod N) fls true) (seq 0 (N * m))).
    exists bs'. split; [unfold bs'; rewrite map_length, seq_length, paths_app; reflexivity|]. split.
    + rewrite RE', RE. apply eq_true_iff_eq. rewrite andb_true_iff, !forallb_forall. unfold bs'. split.
      * intros [X Y] x IX. apply in_map_iff in IX as (cc & <- & IC). apply in_seq in IC.
        assert (cc mod N < N)%nat by (apply Nat.mod_upper_bound; lia).
        rewrite (X (nth (cc mod N) bs true)) by (apply nth_In; lia). rewrite (Y (nth (cc mod N) fls true)) by (apply nth_In; lia). reflexivity.
      * intro X. assert (Z : forall j, (j < N)%nat -> nth j bs true = true /\ nth j fls true = true).
        { intros j Hj. assert (nth j bs true && nth j fls true = true).
          { apply X. apply in_map_iff. exists j. split; [rewrite Nat.mod_small by auto; reflexivity|]. apply in_seq. nia. }
          apply andb_true_iff; auto. }
        split; intros x IX; apply (In_nth _ _ true) in IX as (j & Hj & <-); apply Z; lia.
    + intros jj q' Q'. destruct (NK jj) as (j & k & -> & Hj & Hk). { apply nth_error_lt in Q'. congruence. }
      destruct (CAND j k q' Hj Hk Q') as (q & rr & h & flag & locs & loc & Q & ERR & PO & SV & LK & EL & EQ & EF & RQ).
      assert (NTH : nth (j + N * k) bs' true = nth j bs true && nth j fls true).
      { unfold bs'. rewrite (nth_indep _ true (nth (0 mod N) bs true && nth (0 mod N) fls true)) by (rewrite map_length, seq_length; nia).
        rewrite (map_nth (fun c => nth (c mod N) bs true && nth (c mod N) fls true)). rewrite seq_nth by nia. cbn [plus].
        rewrite (proj2 (DIV j k Hj)). reflexivity. }
      rewrite NTH, EQ, <- EF. rewrite choices_app by auto. fold N.
      rewrite (proj1 (DIV j k Hj)), (Nat.mod_small k) by auto.
      rewrite choices_shift by auto.
      eapply dv_step; eauto.
      { subst rr. unfold rhs_of, RR. fold K. destruct c; [left|right]; split; auto; [tauto|]. intro X. apply C' in X. discriminate. }
Qed.

Lemma steps_inv : forall ss ss0 first st st',
  inv ss0 st -> (forall s ids, In (s, ids) (ss0 ++ ss) -> step_ok s ids) ->
  NoDup (concat (map snd (ss0 ++ ss))) -> (forall i, In i (concat (map snd (ss0 ++ ss))) -> (i < n)%nat) ->
  (first = true -> ss0 = []) ->
  steps_loop es reversed first (map fst ss) st = Some st' -> inv (ss0 ++ ss) st'.
Proof.
  induction ss as [|[s ids] ss IH]; intros ss0 first st st' I SOK ND BD FST H; cbn [map steps_loop fst] in H.
  - injection H as <-. rewrite app_nil_r. auto.
  - destruct (step_body es reversed first s st) as [st1|] eqn:SB; [|discriminate].
    replace (ss0 ++ (s, ids) :: ss) with ((ss0 ++ [(s, ids)]) ++ ss) in * by (rewrite <- app_assoc; reflexivity).
    eapply (IH _ false st1); auto; [|discriminate].
    eapply step_inv; eauto.
    + apply SOK. apply in_or_app. left. apply in_or_app. right. left. auto.
    + intros i Hi. rewrite !map_app, !concat_app in ND, BD. cbn in ND, BD. rewrite app_nil_r in ND, BD. split.
      * apply BD. apply in_or_app. left. apply in_or_app. right. auto.
      * intro X. rewrite <- app_assoc in ND. clear - ND X Hi. induction (concat (map snd ss0)) as [|x l IHl]; [destruct X|].
        cbn in ND. inversion_clear ND as [|? ? NI ND']. destruct X as [<-|X]; [|auto]. apply NI. apply in_or_app. right. apply in_or_app. left. auto.
    + intros s1 ids1 I1. apply (SOK s1 ids1). apply in_or_app. left. apply in_or_app. left. auto.
Qed.

Lemma solve_spec : forall ss flag cands, steps_ok n ss -> ss <> [] ->
  ik_solve p (map fst ss) reversed target = Some (flag, cands) ->
  length cands = computeSolutions (map fst ss) /\
  (forall q, In q cands -> length q = n) /\
  exists bs, flag = forallb (fun b => b) bs /\ length bs = length cands /\
    forall c q, nth_error cands c = Some q -> derived p reversed target code_marks ss (choices ss c) q (nth c bs true).
Proof.
  intros ss flag cands (SOK & ND & BD) NE H. unfold ik_solve in H.
  destruct (steps_loop (exps p) reversed true (map fst ss) (ik_init p reversed target)) as [st|] eqn:E; [|discriminate].
  injection H as <- <-.
  assert (I : inv ([] ++ ss) st) by (eapply steps_inv; eauto using inv_start).
  destruct I as (_ & LS & ZQ & bs & LB & RE & DV). cbn [app] in *.
  split; [|split; [intros; apply ZQ; auto|]].
  - rewrite LS. destruct ss as [|x ss]; [congruence|]. unfold computeSolutions. cbn [map]. rewrite <- map_cons, count_paths. lia.
  - exists bs. repeat split; auto. congruence.
Qed.
End Facts2.
