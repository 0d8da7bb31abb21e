From Coq Require Import Reals ZArith List Bool Lra Lia.
From Verif Require Import Kdl Vocab Bcc BccSpec BccFacts.
Import ListNotations.
Open Scope R_scope.
Local Notation S := Datatypes.S.

(** ** Isochronous speeds *)
Section Iso.
Variables (c : cfg) (q qd : list R).
Notation ref j := (nth j (qRefSpeeds c) 0).
Notation dist j := (Rabs (nth j qd 0 - nth j q 0)).

Lemma iso_times_spec js : forall m0 ds m, 0 <= m0 -> iso_times c q qd js m0 = Some (ds, m) ->
  length ds = length js /\ m0 <= m /\
  (forall i, (i < length js)%nat -> let j := nth i js 0%nat in
     (ref j <= 0 -> nth i ds 0 = 0) /\ (0 < ref j -> nth i ds 0 = dist j /\ nth i ds 0 <= m * ref j)) /\
  (m = m0 \/ exists j, In j js /\ 0 < ref j /\ m * ref j = dist j /\ 0 < m).
Proof.
  induction js as [|j js IH]; intros m0 ds m P H; cbn [iso_times] in H.
  - injection H as <- <-. repeat split; auto; try lra; cbn in *; lia.
  - destruct (nth_error (qRefSpeeds c) j) as [r|] eqn:E; [|discriminate].
    assert (Er : ref j = r) by (apply nth_error_nth with (1 := E)).
    destruct (Rleb_spec r 0) as [Z|Z].
    + destruct (iso_times c q qd js m0) as [[ds' m']|] eqn:I; [|discriminate]. cbn in H. injection H as <- <-.
      destruct (IH _ _ _ P I) as (H1 & H2 & H3 & H4). split; [cbn; lia|]. split; [exact H2|]. split.
      * intros [|i] Hi; cbn.
        -- split; [auto|lra].
        -- apply H3. cbn in Hi. lia.
      * destruct H4 as [->|(k & K1 & K2)]; [now left|right; exists k; split; [now right|exact K2]].
    + destruct (nth_error qd j) as [x|] eqn:Ex; [|discriminate]. destruct (nth_error q j) as [y|] eqn:Ey; [|discriminate].
      assert (Ed : dist j = Rabs (x - y)) by (rewrite (nth_error_nth _ _ 0 Ex), (nth_error_nth _ _ 0 Ey); reflexivity).
      destruct iso_times as [[ds' m']|] eqn:I in H; [|discriminate]. cbn in H. injection H as <- <-.
      assert (Pm : 0 <= Rabs (x - y) / r) by (apply Rmult_le_pos; [apply Rabs_pos|left; apply Rinv_0_lt_compat; lra]).
      assert (Em : Rabs (x - y) / r * r = Rabs (x - y)) by (field; lra).
      set (t := Rabs (x - y) / r) in *.
      assert (P' : 0 <= (if Rltb m0 t then t else m0)) by (destruct Rltb; lra).
      destruct (IH _ _ _ P' I) as (H1 & H2 & H3 & H4). split; [cbn; lia|].
      assert (M : m0 <= m' /\ t <= m') by (destruct (Rltb_spec m0 t); lra).
      split; [lra|]. split.
      * intros [|i] Hi; cbn.
        -- split; [lra|]. intros _. split; [now rewrite Ed|]. rewrite Er, <- Em. apply Rmult_le_compat_r; lra.
        -- apply H3. cbn in Hi. lia.
      * destruct H4 as [->|(k & K1 & K2)].
        -- destruct (Rltb_spec m0 t) as [L|L]; [right|now left].
           exists j. split; [now left|]. rewrite Er, Ed. repeat split; lra.
        -- right. exists k. split; [now right|exact K2].
Qed.

Lemma isochronous_speeds v b : computeIsocronousSpeeds c q qd = Some (v, b) ->
  (b = true -> exists T, isochronous (numJoints c) (qRefSpeeds c) q qd v T) /\
  (b = true <-> must_move (numJoints c) (qRefSpeeds c) q qd) /\
  (b = false -> v = zeros (numJoints c)).
Proof.
  unfold computeIsocronousSpeeds. destruct iso_times as [[ds m]|] eqn:I; [|discriminate]. cbn [fst snd].
  apply iso_times_spec in I; [|lra]. rewrite seq_length in I. destruct I as (H1 & H2 & H3 & H4).
  assert (K : forall j, (j < numJoints c)%nat -> (ref j <= 0 -> nth j ds 0 = 0) /\ (0 < ref j -> nth j ds 0 = dist j /\ nth j ds 0 <= m * ref j)).
  { intros j Hj. specialize (H3 j Hj). now rewrite seq_nth in H3. }
  destruct (Reqb_spec m 0) as [Z|Z]; intros E; injection E as <- <-.
  - split; [discriminate|]. split.
    + split; [discriminate|]. intros (j & J1 & J2 & J3). exfalso. destruct (K j J1) as (_ & K2). destruct (K2 J2) as (K3 & K4).
      rewrite K3, Z in K4. assert (dist j <> 0) by (apply Rabs_no_R0; lra). pose proof (Rabs_pos (nth j qd 0 - nth j q 0)). lra.
    + intros _. rewrite <- H1. clear. unfold zeros. induction ds; cbn; congruence.
  - assert (P : 0 < m) by lra. destruct H4 as [->|(k & Hk & K1 & K2 & _)]; [lra|]. apply in_seq0 in Hk.
    split; [|split; [|discriminate]].
    + intros _. exists m. split; [exact P|]. split; [now rewrite map_length|].
      assert (N : forall j, (j < numJoints c)%nat -> nth j (map (fun delta => delta / m) ds) 0 = nth j ds 0 / m).
      { intros j Hj. rewrite nth_indep with (d' := 0 / m) by (rewrite map_length; lia). apply (map_nth (fun delta => delta / m)). }
      split.
      * intros j Hj. rewrite (N j Hj). destruct (K j Hj) as (L1 & L2). split.
        -- intros R. destruct (L2 R) as (L3 & L4). rewrite L3 in *. repeat split.
           ++ apply Rmult_le_pos; [apply Rabs_pos|left; now apply Rinv_0_lt_compat].
           ++ apply Rmult_le_reg_r with m; [exact P|]. unfold Rdiv. rewrite Rmult_assoc, Rinv_l by lra. lra.
           ++ field; lra.
        -- intros R. rewrite (L1 R). unfold Rdiv. ring.
      * exists k. split; [exact Hk|]. split; [exact K1|]. rewrite (N k Hk). destruct (K k Hk) as (_ & L2). destruct (L2 K1) as (L3 & _).
        rewrite L3, <- K2. field; lra.
    + split; [intros _|reflexivity]. exists k. split; [exact Hk|]. split; [exact K1|]. intros X. rewrite X in K2.
      rewrite Rminus_diag_eq, Rabs_R0 in K2 by reflexivity. assert (0 < m * ref k) by (now apply Rmult_lt_0_compat). lra.
Qed.
Lemma isochronous_total : length (qRefSpeeds c) = numJoints c -> length q = numJoints c -> (numJoints c <= length qd)%nat ->
  exists r, computeIsocronousSpeeds c q qd = Some r.
Proof.
  intros L1 L2 L3. unfold computeIsocronousSpeeds.
  assert (X : forall js m, (forall j, In j js -> (j < numJoints c)%nat) -> exists r, iso_times c q qd js m = Some r).
  { induction js as [|j js IH]; intros m L; cbn; [eauto|]. pose proof (L j (or_introl eq_refl)).
    assert (L' : forall i, In i js -> (i < numJoints c)%nat) by (intros; apply L; now right).
    rewrite (nth_error_some_nth 0 (qRefSpeeds c) j), (nth_error_some_nth 0 qd j), (nth_error_some_nth 0 q j) by lia.
    destruct Rleb.
    - destruct (IH m L') as (r & ->). eauto.
    - edestruct IH as (r & ->); [exact L'|]. eauto. }
  destruct (X (seq 0 (numJoints c)) 0) as (r & ->); [intros j Hj; now apply in_seq0|]. destruct Reqb; eauto.
Qed.
End Iso.

(** ** Mode changes *)
Definition mode_call (m : Z) (e : event) : Prop :=
  match fst e with GetControlModes | Sleep _ => True | SetControlModes _ m' => m' = m | _ => False end.

Lemma forallb_fill (n : nat) m l : forallb (Z.eqb m) (fill 0%Z n l) = true <-> forall j, (j < n)%nat -> nth j l 0%Z = m.
Proof.
  rewrite forallb_forall. unfold fill. split.
  - intros H j Hj. symmetry. apply Z.eqb_eq. apply H. apply in_map_iff. exists j. split; [reflexivity|now apply in_seq0].
  - intros H x Hx. apply in_map_iff in Hx. destruct Hx as (j & <- & Hj). apply in_seq0 in Hj. rewrite (H j Hj). apply Z.eqb_refl.
Qed.
Lemma check_modes c m s tr o s' : exec (checkControlModes c m) s tr o s' ->
  s' = s /\ exists a b, tr = [(GetControlModes, a)] /\ o = Done b /\ (b = true <-> all_in_mode (numJoints c) m a).
Proof.
  cbn. intros (a & tr' & -> & (-> & -> & ->)). split; [reflexivity|]. exists a. eexists. split; [reflexivity|]. split; [reflexivity|].
  unfold all_in_mode. now rewrite andb_true_iff, forallb_fill.
Qed.
Lemma retries c m n : forall s tr o s', exec (mode_retries c m n) s tr o s' ->
  s' = s /\ Forall (mode_call m) tr /\ exists b, o = Done b /\ (b = true -> exists t a, tr = t ++ [(GetControlModes, a)] /\ all_in_mode (numJoints c) m a).
Proof.
  assert (X : forall p, forall s tr o s',
     (forall s tr o s', exec p s tr o s' -> s' = s /\ Forall (mode_call m) tr /\ exists b, o = Done b /\ (b = true -> exists t a, tr = t ++ [(GetControlModes, a)] /\ all_in_mode (numJoints c) m a)) ->
     exec (let* _ := ask (Sleep (1 / 10)) in let* b := checkControlModes c m in if b then Ret true else p) s tr o s' ->
     s' = s /\ Forall (mode_call m) tr /\ exists b, o = Done b /\ (b = true -> exists t a, tr = t ++ [(GetControlModes, a)] /\ all_in_mode (numJoints c) m a)).
  { intros p s tr o s' Hp E. cbn [bind ask exec] in E. destruct E as (a & tr' & -> & E).
    apply exec_bind in E. destruct E as [(b & t1 & t2 & s1 & -> & E1 & E2)|(e & -> & E1)].
    - apply check_modes in E1. destruct E1 as (-> & a1 & b1 & -> & E & E1). injection E as ->. destruct b1.
      + cbn in E2. destruct E2 as (-> & -> & ->). split; [reflexivity|]. split; [repeat constructor|]. exists true. split; [reflexivity|].
        intros _. exists [(Sleep (1 / 10), a)], a1. split; [reflexivity|]. now apply E1.
      + destruct (Hp _ _ _ _ E2) as (-> & F & b & -> & G). split; [reflexivity|]. split; [repeat constructor; exact F|].
        exists b. split; [reflexivity|]. intros Hb. destruct (G Hb) as (t & a2 & -> & G2).
        exists ((Sleep (1 / 10), a) :: (GetControlModes, a1) :: t), a2. split; [reflexivity|exact G2].
    - apply check_modes in E1. destruct E1 as (_ & a1 & b1 & _ & E & _). discriminate. }
  induction n as [|n IH]; intros s tr o s' E; cbn [mode_retries] in E.
  - apply (X (Ret false)); [|exact E]. cbn. intros ? ? ? ? (-> & -> & ->). repeat split; auto. exists false. split; [reflexivity|discriminate].
  - apply (X (mode_retries c m n)); [exact IH|exact E].
Qed.
(** the whole change: only mode calls, no variable touched, and success means that the last
    answer has every joint in the mode *)
Definition modes_changed (c : cfg) (m : Z) (s : st) (tr : list event) (o : outcome bool) (s' : st) : Prop :=
  s' = s /\ Forall (mode_call m) tr /\ exists b, o = Done b /\
  (b = true -> exists t a, tr = t ++ [(GetControlModes, a)] /\ all_in_mode (numJoints c) m a).
Lemma set_modes c m s tr o s' : exec (setControlModes c m) s tr o s' -> modes_changed c m s tr o s'.
Proof.
  unfold setControlModes. cbn [bind ask exec]. intros (a & tr' & -> & E). destruct (ok a) eqn:Oa; cbn [negb] in E.
  - apply exec_bind in E. destruct E as [(b & t1 & t2 & s1 & -> & E1 & E2)|(e & -> & E1)].
    + assert (F : s1 = s /\ Forall (mode_call m) t1).
      { destruct filter; cbn in E1.
        - destruct E1 as (-> & _ & ->). auto.
        - destruct E1 as (x & t & -> & -> & _ & ->). repeat constructor. }
      destruct F as (-> & F). destruct b; cbn [negb] in E2.
      * apply retries in E2. destruct E2 as (-> & F2 & b & -> & G). split; [reflexivity|]. split.
        { constructor; [exact I|]. now apply Forall_app. }
        exists b. split; [reflexivity|]. intros Hb. destruct (G Hb) as (t & a2 & -> & G2).
        exists ((GetControlModes, a) :: t1 ++ t), a2. split; [cbn; now rewrite <- app_assoc|exact G2].
      * cbn in E2. destruct E2 as (-> & -> & ->). split; [reflexivity|]. split.
        { constructor; [exact I|]. rewrite app_nil_r. exact F. }
        exists false. split; [reflexivity|discriminate].
    + exfalso. destruct filter; cbn in E1; [destruct E1 as (_ & E1 & _)|destruct E1 as (? & ? & _ & _ & E1 & _)]; discriminate.
  - cbn in E. destruct E as (-> & -> & ->). split; [reflexivity|]. split; [repeat constructor|]. exists false. split; [reflexivity|discriminate].
Qed.
Lemma mode_call_quiet m e : mode_call m e -> motion (fst e) = false.
Proof. unfold mode_call. now destruct (fst e). Qed.
Lemma quiet_motions m tr : Forall (mode_call m) tr -> motions tr = [].
Proof. unfold motions. induction 1 as [|e tr H _ IH]; cbn; [reflexivity|]. now rewrite (mode_call_quiet _ _ H). Qed.
Lemma motions_app t1 t2 : motions (t1 ++ t2) = motions t1 ++ motions t2.
Proof. unfold motions. now rewrite map_app, filter_app. Qed.

(** ** Stopping *)
Definition set_off (s : st) : st := set_trajectories [] (setCurrentState VOCAB_CC_NOT_CONTROLLING s).
Definition stopped (c : cfg) (s : st) (tr : list event) (o : outcome bool) (s' : st) : Prop :=
  o = Done true /\ s' = set_off s /\ exists t a, tr = t ++ [(Stop, a)] /\ Forall (mode_call VOCAB_CM_POSITION) t.
Lemma stop_spec c s tr o s' : exec (stopControl c) s tr o s' -> stopped c s tr o s'.
Proof.
  unfold stopControl. intros E. cbn [bind modify exec] in E. apply exec_bind in E.
  destruct E as [(b & t1 & t2 & s1 & -> & E1 & E2)|(e & -> & E1)]; apply set_modes in E1; destruct E1 as (-> & F & b' & E & _); [|discriminate].
  cbn in E2. destruct E2 as (a & t & -> & (-> & -> & ->)). split; [reflexivity|]. split; [reflexivity|]. exists t1, a. auto.
Qed.
Lemma stopped_quiet c s tr o s' : stopped c s tr o s' -> motions tr = [].
Proof. intros (_ & _ & t & a & -> & F). rewrite motions_app, (quiet_motions _ _ F). reflexivity. Qed.
