From Coq Require Import Reals ZArith List Bool Lra Lia.
From Verif Require Import Kdl Vocab Bcc BccSpec.
Import ListNotations.
Open Scope R_scope.
Local Notation S := Datatypes.S.

(** ** A calculus for programs *)
Fixpoint wp {A} (p : prog A) (s : st) (t : list event) (Q : list event -> outcome A -> st -> Prop) : Prop :=
  match p with
  | Ret a => Q t (Done a) s
  | Stuck e => Q t (Trouble e) s
  | Call c k => forall a, wp (k a) s (t ++ [(c, a)]) Q
  | Get k => wp (k s) s t Q
  | Mod f k => wp k (f s) t Q
  end.

Lemma wp_exec {A} (p : prog A) : forall s t Q tr o s', wp p s t Q -> exec p s tr o s' -> Q (t ++ tr) o s'.
Proof.
  induction p as [a|e|x k IH|k IH|f k IH]; cbn; intros s t Q tr o s' W E.
  - destruct E as (-> & -> & ->). now rewrite app_nil_r.
  - destruct E as (-> & -> & ->). now rewrite app_nil_r.
  - destruct E as (a & tr' & -> & E). specialize (IH a _ _ _ _ _ _ (W a) E). now rewrite <- app_assoc in IH.
  - eapply IH; eauto.
  - eapply IH; eauto.
Qed.
Lemma wp_sound {A} (p : prog A) s Q tr o s' : wp p s [] Q -> exec p s tr o s' -> Q tr o s'.
Proof. intros W E. exact (wp_exec p _ _ _ _ _ _ W E). Qed.
Lemma exec_wp {A} (p : prog A) : forall s t (Q : list event -> outcome A -> st -> Prop),
  (forall tr o s', exec p s tr o s' -> Q (t ++ tr) o s') -> wp p s t Q.
Proof.
  induction p as [a|e|x k IH|k IH|f k IH]; cbn; intros s t Q H.
  - specialize (H [] (Done a) s). rewrite app_nil_r in H. apply H. auto.
  - specialize (H [] (Trouble e) s). rewrite app_nil_r in H. apply H. auto.
  - intros a. apply IH. intros tr o s' E. rewrite <- app_assoc. apply H. exists a, tr. auto.
  - apply IH. exact (H).
  - apply IH. exact H.
Qed.
Lemma wp_bind {A B} (p : prog A) (f : A -> prog B) : forall s t Q,
  wp (bind p f) s t Q <->
  wp p s t (fun t' o s' => match o with Done a => wp (f a) s' t' Q | Trouble e => Q t' (Trouble e) s' end).
Proof. induction p; cbn; intros; try tauto; auto. split; intros W a; specialize (W a); apply H; exact W. Qed.
Lemma wp_mono {A} (p : prog A) : forall s t (Q Q' : list event -> outcome A -> st -> Prop),
  (forall t' o s', Q t' o s' -> Q' t' o s') -> wp p s t Q -> wp p s t Q'.
Proof. induction p as [a|e|x k IH|k IH|f k IH]; cbn; intros s t Q Q' H' W; eauto. Qed.
(** a part whose behaviour is known *)
Lemma wp_use {A} (p : prog A) s t (Q Q' : list event -> outcome A -> st -> Prop) :
  (forall tr o s', exec p s tr o s' -> Q tr o s') -> (forall tr o s', Q tr o s' -> Q' (t ++ tr) o s') -> wp p s t Q'.
Proof. intros H1 H2. apply exec_wp. auto. Qed.

Lemma exec_bind {A B} (p : prog A) (f : A -> prog B) : forall s tr o s',
  exec (bind p f) s tr o s' <->
  (exists a t1 t2 s1, tr = t1 ++ t2 /\ exec p s t1 (Done a) s1 /\ exec (f a) s1 t2 o s') \/
  (exists e, o = Trouble e /\ exec p s tr (Trouble e) s').
Proof.
  induction p as [a|e|x k IH|k IH|g k IH]; cbn; intros s tr o s'.
  - split.
    + intros E. left. exists a, [], tr, s. auto.
    + intros [(b & t1 & t2 & s1 & -> & (-> & E & ->) & E2)|(e & -> & (-> & E & ->))]; [|discriminate].
      injection E as <-. exact E2.
  - split.
    + intros (-> & -> & ->). right. exists e. auto.
    + intros [(b & t1 & t2 & s1 & -> & (-> & E & ->) & E2)|(e' & -> & (-> & E & ->))]; [discriminate|].
      injection E as <-. auto.
  - split.
    + intros (a & tr' & -> & E). apply IH in E. destruct E as [(b & t1 & t2 & s1 & -> & E1 & E2)|(e & -> & E)].
      * left. exists b, ((x, a) :: t1), t2, s1. split; [reflexivity|]. split; [|exact E2]. exists a, t1. auto.
      * right. exists e. split; [reflexivity|]. exists a, tr'. auto.
    + intros [(b & t1 & t2 & s1 & -> & (a & tr' & -> & E1) & E2)|(e & -> & (a & tr' & -> & E))];
        exists a; eexists; (split; [reflexivity|]); apply IH; [left|right]; eauto 8.
  - apply IH.
  - apply IH.
Qed.

(** ** The checks *)
Lemma Rltb_spec x y : reflect (x < y) (Rltb x y).
Proof. unfold Rltb. destruct (Rlt_dec x y); constructor; lra. Qed.
Lemma Rleb_spec x y : reflect (x <= y) (Rleb x y).
Proof. unfold Rleb. destruct (Rle_dec x y); constructor; lra. Qed.
Lemma Reqb_spec x y : reflect (x = y) (Reqb x y).
Proof. unfold Reqb. destruct (Req_EM_T x y); constructor; lra. Qed.

Lemma fill_length {A} (d : A) n l : length (fill d n l) = n.
Proof. unfold fill. now rewrite map_length, seq_length. Qed.
Lemma fill_nth {A} (d d' : A) n l j : (j < n)%nat -> nth j (fill d n l) d' = nth j l d.
Proof.
  intros H. unfold fill. rewrite nth_indep with (d' := nth 0 l d) by now rewrite map_length, seq_length.
  change (nth 0 l d) with ((fun i => nth i l d) 0%nat). rewrite map_nth. now rewrite seq_nth.
Qed.
Lemma nth_error_some_nth {A} (d : A) l j : (j < length l)%nat -> nth_error l j = Some (nth j l d).
Proof. intros H. now apply nth_error_nth'. Qed.
Lemma in_seq0 j n : In j (seq 0 n) <-> (j < n)%nat.
Proof. rewrite in_seq. lia. Qed.

Lemma limits_loop_spec c q js b : (forall j, In j js -> (j < length q /\ j < length (qMin c) /\ j < length (qMax c))%nat) ->
  limits_loop c q js = Some b -> (b = true <-> forall j, In j js -> inside_at c q j).
Proof.
  induction js as [|j js IH]; intros L H; cbn in H.
  - injection H as <-. cbn; intuition.
  - destruct (L j (or_introl eq_refl)) as (L1 & L2 & L3).
    rewrite (nth_error_some_nth 0 q j), (nth_error_some_nth 0 (qMin c) j), (nth_error_some_nth 0 (qMax c) j) in H by assumption.
    assert (I : inside_at c q j <-> ~ (nth j q 0 < nth j (qMin c) 0 + epsilon \/ nth j (qMax c) 0 - epsilon < nth j q 0)).
    { unfold inside_at, margin, epsilon. split; [intros X [Y|Y]; lra|intros X; split; apply Rnot_lt_le; intros Y; apply X; auto]. }
    destruct (Rltb_spec (nth j q 0) (nth j (qMin c) 0 + epsilon)) as [X|X]; cbn in H.
    { injection H as <-. split; [discriminate|]. intros Y. specialize (Y j (or_introl eq_refl)). tauto. }
    destruct (Rltb_spec (nth j (qMax c) 0 - epsilon) (nth j q 0)) as [Y|Y].
    { injection H as <-. split; [discriminate|]. intros Z. specialize (Z j (or_introl eq_refl)). tauto. }
    apply IH in H; [|intros; apply L; now right]. rewrite H. split.
    + intros Z i [<-|Hi]; [apply I; tauto|auto].
    + intros Z i Hi. apply Z. now right.
Qed.
Lemma limits_loop_total c q js : (forall j, In j js -> (j < length q /\ j < length (qMin c) /\ j < length (qMax c))%nat) ->
  exists b, limits_loop c q js = Some b.
Proof.
  induction js as [|j js IH]; intros L; cbn; [eauto|].
  destruct (L j (or_introl eq_refl)) as (L1 & L2 & L3).
  rewrite (nth_error_some_nth 0 q j), (nth_error_some_nth 0 (qMin c) j), (nth_error_some_nth 0 (qMax c) j) by assumption.
  destruct orb; eauto. apply IH. intros i Hi. apply L. now right.
Qed.
Lemma checkJointLimits_ok c q : complete c -> length q = numJoints c ->
  exists b, checkJointLimits c q = Some b /\ (b = true <-> inside c q).
Proof.
  intros (C1 & C2 & _) L. unfold checkJointLimits.
  assert (X : forall j, In j (seq 0 (numJoints c)) -> (j < length q /\ j < length (qMin c) /\ j < length (qMax c))%nat)
    by (intros j Hj; apply in_seq0 in Hj; lia).
  destruct (limits_loop_total c q _ X) as (b & H). exists b. split; [exact H|].
  rewrite (limits_loop_spec c q _ b X H). unfold inside. split; intros Y j Hj; apply Y; now apply in_seq0.
Qed.
(** what an accepted vector satisfies, whatever the lengths *)
Lemma limits_true c q : checkJointLimits c q = Some true -> inside c q.
Proof.
  unfold checkJointLimits, inside. intros H j Hj. apply in_seq0 in Hj. revert H Hj.
  induction (seq 0 (numJoints c)) as [|i js IH]; cbn; [tauto|].
  destruct (nth_error q i) as [x|] eqn:E1; [|discriminate]. destruct (nth_error (qMin c) i) as [lo|] eqn:E2; [|discriminate].
  destruct (nth_error (qMax c) i) as [hi|] eqn:E3; [|discriminate].
  destruct (Rltb_spec x (lo + epsilon)); [discriminate|]. destruct (Rltb_spec (hi - epsilon) x); [discriminate|]. cbn.
  intros H [->|Hj]; [|auto]. unfold inside_at.
  rewrite (nth_error_nth _ _ 0 E1), (nth_error_nth _ _ 0 E2), (nth_error_nth _ _ 0 E3). unfold margin; unfold epsilon in *; lra.
Qed.

Lemma velocities_loop_spec c v js b : (forall j, In j js -> (j < length v /\ j < length (qdotMin c) /\ j < length (qdotMax c))%nat) ->
  velocities_loop c v js = Some b ->
  (b = true <-> forall j, In j js -> speed_ok (nth j (qdotMin c) 0) (nth j (qdotMax c) 0) (nth j v 0)).
Proof.
  induction js as [|j js IH]; intros L H; cbn in H.
  - injection H as <-. cbn; intuition.
  - destruct (L j (or_introl eq_refl)) as (L1 & L2 & L3).
    rewrite (nth_error_some_nth 0 v j), (nth_error_some_nth 0 (qdotMin c) j), (nth_error_some_nth 0 (qdotMax c) j) in H by assumption.
    set (x := nth j v 0) in *. set (lo := nth j (qdotMin c) 0) in *. set (hi := nth j (qdotMax c) 0) in *.
    assert (D : ((if Reqb lo 0 then Rltb hi (Rabs x) else Rltb x lo || Rltb hi x) = false) <-> speed_ok lo hi x).
    { unfold speed_ok. destruct (Reqb_spec lo 0) as [Z|Z].
      - destruct (Rltb_spec hi (Rabs x)) as [Y|Y].
        + split; [discriminate|]. intros (W & _). specialize (W Z). exfalso. apply (Rlt_irrefl (Rabs x)).
          apply Rle_lt_trans with hi; [|exact Y]. apply Rabs_le. lra.
        + split; [|reflexivity]. intros _. split; [|tauto]. intros _. apply Rnot_lt_le in Y. 
          unfold Rabs in Y; destruct Rcase_abs in Y; lra.
      - destruct (Rltb_spec x lo), (Rltb_spec hi x); cbn; (split; [try discriminate; intros _|reflexivity || (intros (_ & W); specialize (W Z); lra)]); split; lra. }
    assert (G : (if Reqb lo 0 then Rltb hi (Rabs x) else Rltb x lo || Rltb hi x) = true -> b = false).
    { intros G. destruct (Reqb lo 0); rewrite G in H; congruence. }
    assert (G' : (if Reqb lo 0 then Rltb hi (Rabs x) else Rltb x lo || Rltb hi x) = false -> velocities_loop c v js = Some b).
    { intros G'. destruct (Reqb lo 0); rewrite G' in H; exact H. }
    destruct (if Reqb lo 0 then Rltb hi (Rabs x) else Rltb x lo || Rltb hi x).
    + rewrite (G eq_refl). split; [discriminate|]. intros Y. specialize (Y j (or_introl eq_refl)). apply D in Y. discriminate.
    + rewrite IH; [|intros; apply L; now right|auto]. split.
      * intros Y i [<-|Hi]; [now apply D|auto].
      * intros Y i Hi. apply Y. now right.
Qed.
Lemma velocities_loop_total c q js : (forall j, In j js -> (j < length q /\ j < length (qdotMin c) /\ j < length (qdotMax c))%nat) ->
  exists b, velocities_loop c q js = Some b.
Proof.
  induction js as [|j js IH]; intros L; cbn; [eauto|].
  destruct (L j (or_introl eq_refl)) as (L1 & L2 & L3).
  rewrite (nth_error_some_nth 0 q j), (nth_error_some_nth 0 (qdotMin c) j), (nth_error_some_nth 0 (qdotMax c) j) by assumption.
  destruct Reqb; [destruct Rltb|destruct orb]; eauto; apply IH; intros i Hi; apply L; now right.
Qed.
Lemma checkJointVelocities_ok c v : complete c -> (numJoints c <= length v)%nat ->
  exists b, checkJointVelocities c v = Some b /\ (b = true <-> slow c v).
Proof.
  intros (_ & _ & C1 & C2 & _) L. unfold checkJointVelocities.
  assert (X : forall j, In j (seq 0 (numJoints c)) -> (j < length v /\ j < length (qdotMin c) /\ j < length (qdotMax c))%nat)
    by (intros j Hj; apply in_seq0 in Hj; lia).
  destruct (velocities_loop_total c v _ X) as (b & H). exists b. split; [exact H|].
  rewrite (velocities_loop_spec c v _ b X H). unfold slow. split; intros Y j Hj; apply Y; now apply in_seq0.
Qed.
Lemma velocities_loop_lengths c v js : velocities_loop c v js = Some true -> forall j, In j js ->
  (j < length v /\ j < length (qdotMin c) /\ j < length (qdotMax c))%nat.
Proof.
  induction js as [|i js IH]; cbn; [tauto|].
  destruct (nth_error v i) as [x|] eqn:E1; [|discriminate]. destruct (nth_error (qdotMin c) i) as [lo|] eqn:E2; [|discriminate].
  destruct (nth_error (qdotMax c) i) as [hi|] eqn:E3; [|discriminate].
  intros H j [->|Hj].
  - repeat split; apply nth_error_Some; congruence.
  - apply IH; [|exact Hj]. destruct Reqb; [destruct Rltb|destruct orb]; congruence.
Qed.
Lemma velocities_true c v : checkJointVelocities c v = Some true -> slow c v /\ (numJoints c <= length v)%nat.
Proof.
  unfold checkJointVelocities. intros H. pose proof (velocities_loop_lengths _ _ _ H) as L. split.
  - intros j Hj. apply (proj1 (velocities_loop_spec c v _ true L H) eq_refl). now apply in_seq0.
  - destruct (numJoints c) as [|n]; [lia|]. destruct (L n); [apply in_seq0; lia|lia].
Qed.

Lemma sgn_eq x y : sgn x = sgn y <-> (0 < x /\ 0 < y) \/ (x < 0 /\ y < 0) \/ (x = 0 /\ y = 0).
Proof.
  unfold sgn. destruct (Rltb_spec 0 x), (Rltb_spec x 0), (Rltb_spec 0 y), (Rltb_spec y 0);
    split; intros H; try discriminate; try reflexivity; try lra; exfalso; lra.
Qed.
Definition dir_ok (c : cfg) (q v : list R) (j : nat) : Prop :=
  inside_at c q j \/ sgn (nth j q 0 - (nth j (qMax c) 0 + nth j (qMin c) 0) / 2) <> sgn (nth j v 0).
Lemma limits_dir_spec c q v js b :
  (forall j, In j js -> (j < length q /\ j < length v /\ j < length (qMin c) /\ j < length (qMax c))%nat) ->
  limits_dir_loop c q v js = Some b -> (b = true <-> forall j, In j js -> dir_ok c q v j).
Proof.
  induction js as [|j js IH]; intros L H; cbn in H.
  - injection H as <-. cbn; intuition.
  - destruct (L j (or_introl eq_refl)) as (L1 & L2 & L3 & L4).
    rewrite (nth_error_some_nth 0 q j), (nth_error_some_nth 0 v j), (nth_error_some_nth 0 (qMin c) j), (nth_error_some_nth 0 (qMax c) j) in H by assumption.
    assert (I : inside_at c q j <-> Rltb (nth j q 0) (nth j (qMin c) 0 + epsilon) || Rltb (nth j (qMax c) 0 - epsilon) (nth j q 0) = false).
    { unfold inside_at, margin, epsilon. destruct (Rltb_spec (nth j q 0) (nth j (qMin c) 0 + 1 / 100000)), (Rltb_spec (nth j (qMax c) 0 - 1 / 100000) (nth j q 0)); cbn; split; try discriminate; try reflexivity; lra. }
    destruct orb.
    + destruct (Z.eqb_spec (sgn (nth j q 0 - (nth j (qMax c) 0 + nth j (qMin c) 0) / 2)) (sgn (nth j v 0))) as [D|D].
      * injection H as <-. split; [discriminate|]. intros Y. destruct (Y j (or_introl eq_refl)) as [Z|Z]; [|tauto].
        apply I in Z. discriminate.
      * rewrite IH; [|intros; apply L; now right|exact H]. split.
        -- intros Y i [<-|Hi]; [now right|auto].
        -- intros Y i Hi. apply Y. now right.
    + rewrite IH; [|intros; apply L; now right|exact H]. split.
      * intros Y i [<-|Hi]; [left; now apply I|auto].
      * intros Y i Hi. apply Y. now right.
Qed.
Lemma limits_dir_total c q v js : (forall j, In j js -> (j < length q /\ j < length v /\ j < length (qMin c) /\ j < length (qMax c))%nat) ->
  exists b, limits_dir_loop c q v js = Some b.
Proof.
  induction js as [|j js IH]; intros L; cbn; [eauto|].
  destruct (L j (or_introl eq_refl)) as (L1 & L2 & L3 & L4).
  rewrite (nth_error_some_nth 0 q j), (nth_error_some_nth 0 v j), (nth_error_some_nth 0 (qMin c) j), (nth_error_some_nth 0 (qMax c) j) by assumption.
  destruct orb; [destruct Z.eqb|]; eauto; apply IH; intros i Hi; apply L; now right.
Qed.
Lemma dir_retreating c q v : wide c ->
  (forall j, In j (seq 0 (numJoints c)) -> dir_ok c q v j) <-> retreating c q v.
Proof.
  intros W. unfold retreating, dir_ok, inside_at. split.
  - intros H j Hj. specialize (W j Hj). unfold margin in *. destruct (H j (proj2 (in_seq0 j _) Hj)) as [I|I]; [lra|].
    split; intros X; apply Rnot_lt_le; intros Y; apply I; apply sgn_eq; lra.
  - intros H j Hj. apply in_seq0 in Hj. destruct (H j Hj) as (H1 & H2). specialize (W j Hj). unfold margin in *.
    destruct (Rlt_le_dec (nth j q 0) (nth j (qMin c) 0 + 1 / 100000)) as [X|X].
    + right. intros Y. apply sgn_eq in Y. specialize (H1 X). lra.
    + destruct (Rlt_le_dec (nth j (qMax c) 0 - 1 / 100000) (nth j q 0)) as [Y|Y].
      * right. intros Z. apply sgn_eq in Z. specialize (H2 Y). lra.
      * left. lra.
Qed.
Lemma checkJointLimitsDir_ok c q v : complete c -> wide c -> length q = numJoints c -> (numJoints c <= length v)%nat ->
  exists b, checkJointLimitsDir c q v = Some b /\ (b = true <-> retreating c q v).
Proof.
  intros (C1 & C2 & _) W L L'. unfold checkJointLimitsDir.
  assert (X : forall j, In j (seq 0 (numJoints c)) -> (j < length q /\ j < length v /\ j < length (qMin c) /\ j < length (qMax c))%nat)
    by (intros j Hj; apply in_seq0 in Hj; lia).
  destruct (limits_dir_total c q v _ X) as (b & H). exists b. split; [exact H|].
  rewrite (limits_dir_spec c q v _ b X H). now apply dir_retreating.
Qed.
