From Coq Require Import Reals ZArith List Bool Lra Lia.
From Verif Require Import Kdl Vocab Bcc BccSpec BccFacts BccAll BccFacts2 BccFacts3 BccFacts4 BccFacts5.
Import ListNotations.
Open Scope R_scope.
Local Notation S := Datatypes.S.

(** ** What is preset *)
(** a change that presets nothing *)
Definition unset (s s' : st) : Prop :=
  (streamingCommand s' = streamingCommand s /\ currentState s' = currentState s) \/ streamingCommand s' = VOCAB_CC_NOT_SET.
Definition untouched (s s' : st) : Prop := streamingCommand s' = streamingCommand s /\ currentState s' = currentState s.
Lemma unset_refl s : unset s s. Proof. left; auto. Qed.
Lemma unset_trans a b d : unset a b -> unset b d -> unset a d.
Proof. unfold unset. intros [(A1 & A2)|A] [(B1 & B2)|B]; auto; [left|right]; split || idtac; congruence. Qed.
Lemma untouched_trans a b d : untouched a b -> untouched b d -> untouched a d.
Proof. unfold untouched. intros (A1 & A2) (B1 & B2). split; congruence. Qed.
Lemma unset_settled s s' : settled s -> unset s s' -> settled s'.
Proof. unfold settled. intros H [(A & B)|A]; [now rewrite A, B|congruence]. Qed.
Lemma unset_set v s : unset s (setCurrentState v s). Proof. now right. Qed.

Lemma all_unset {A} (p : prog A) s tr o s' : all (fun _ => True) unset p -> exec p s tr o s' -> unset s s'.
Proof. intros H E. exact (proj1 (all_exec _ _ _ unset_refl unset_trans H _ _ _ _ E)). Qed.
Lemma all_untouched {A} (p : prog A) s tr o s' : all (fun _ => True) untouched p -> exec p s tr o s' -> untouched s s'.
Proof. intros H E. exact (proj1 (all_exec _ _ _ (fun s => conj eq_refl eq_refl) untouched_trans H _ _ _ _ E)). Qed.
Lemma all_same {A} (p : prog A) s tr o s' : all (fun _ => True) (fun a b => b = a) p -> exec p s tr o s' -> s' = s.
Proof. intros H E. exact (proj1 (all_exec _ (fun a b => b = a) _ (fun s => eq_refl) (fun _ _ _ X Y => eq_trans Y X) H _ _ _ _ E)). Qed.

Lemma to_int_spec x v : to_int x = Some v -> (0 < v)%Z -> IZR v <= x < IZR v + 1.
Proof.
  unfold to_int, trunc. intros H P. destruct (Rltb_spec x 0) as [N|N].
  - exfalso. destruct (archimed (- x)) as (A1 & A2).
    assert (U : (1 <= up (- x))%Z).
    { assert (0 < up (- x))%Z; [|lia]. apply lt_IZR. lra. }
    destruct orb in H; [discriminate|]. injection H as H. lia.
  - destruct orb in H; [discriminate|]. injection H as H. destruct (archimed x) as (A1 & A2). rewrite <- H, minus_IZR. lra.
Qed.
Lemma up_IZR z : up (IZR z) = (z + 1)%Z.
Proof. symmetry. apply tech_up; rewrite plus_IZR; lra. Qed.
Lemma to_int_IZR z v : to_int (IZR z) = Some v -> v = z.
Proof.
  unfold to_int, trunc. destruct (Rltb (IZR z) 0); rewrite <- ?opp_IZR, up_IZR; destruct orb; intros H; try discriminate; injection H as <-; lia.
Qed.

Definition set_fact (k : Z) (x : R) (s : st) (tr : list event) (o : outcome bool) (s1 : st) : Prop :=
  settled s -> forall b, o = Done b ->
  settled s1 /\ forall v, v <> VOCAB_CC_NOT_SET -> streamingCommand s1 = v ->
    (streamingCommand s = v /\ k <> VOCAB_CC_CONFIG_STREAMING_CMD) \/
    (k = VOCAB_CC_CONFIG_STREAMING_CMD /\ b = true /\ to_int x = Some v).
Lemma set_fact_untouched k x s tr o s1 : untouched s s1 -> k <> VOCAB_CC_CONFIG_STREAMING_CMD -> set_fact k x s tr o s1.
Proof. intros (A & B) N St b _. split; [unfold settled in *; now rewrite A, B|]. intros v _ Hv. left. split; [congruence|exact N]. Qed.
Lemma set_fact_off k x s tr o s1 : streamingCommand s1 = VOCAB_CC_NOT_SET -> set_fact k x s tr o s1.
Proof. intros A St b _. split; [unfold settled; congruence|]. intros; congruence. Qed.
Lemma set_param_preset c k x s tr o s1 : exec (setParameter c k x) s tr o s1 -> set_fact k x s tr o s1.
Proof.
  apply wp_sound. unfold setParameter. go.
  destruct (Z.eqb_spec (currentState s) VOCAB_CC_NOT_CONTROLLING) as [E1|E1]; cbn [negb]; go.
  2:{ intros St b _. assert (N : streamingCommand s = VOCAB_CC_NOT_SET).
      { destruct (Z.eq_dec (streamingCommand s) VOCAB_CC_NOT_SET); [assumption|]. now specialize (St n). }
      split; [exact St|]. intros; congruence. }
  assert (U : forall s1, untouched s s1 -> k <> VOCAB_CC_CONFIG_STREAMING_CMD -> forall tr o, set_fact k x s tr o s1) by (intros; now apply set_fact_untouched).
  destruct (Z.eqb_spec k VOCAB_CC_CONFIG_GAIN) as [->|K1]. { destruct Rltb; go; apply U; try discriminate; split; reflexivity. }
  destruct (Z.eqb_spec k VOCAB_CC_CONFIG_TRAJ_DURATION) as [->|K2]. { destruct Rleb; go; apply U; try discriminate; split; reflexivity. }
  destruct (Z.eqb_spec k VOCAB_CC_CONFIG_CMC_PERIOD) as [->|K3].
  { go. intros a. brk; go; [destruct to_int; go|]; apply U; try discriminate; split; reflexivity. }
  destruct (Z.eqb_spec k VOCAB_CC_CONFIG_WAIT_PERIOD) as [->|K4].
  { destruct Rleb; go; [|destruct to_int; go]; apply U; try discriminate; split; reflexivity. }
  destruct (Z.eqb_spec k VOCAB_CC_CONFIG_FRAME) as [->|K5].
  { destruct andb; go; [|destruct to_int; go]; apply U; try discriminate; split; reflexivity. }
  destruct (Z.eqb_spec k VOCAB_CC_CONFIG_STREAMING_CMD) as [->|K6].
  2:{ go. apply U; [split; reflexivity|exact K6]. }
  destruct (to_int x) as [z|] eqn:Tx; go.
  2:{ intros _ b. discriminate. }
  rewrite wp_bind. unfold presetStreamingCommand. go. set (s2 := setCurrentState VOCAB_CC_NOT_CONTROLLING s).
  assert (G : forall b t, wp (if negb b then Ret false else modify (set_streaming z) ;; Ret true) s2 t (set_fact VOCAB_CC_CONFIG_STREAMING_CMD x s)).
  { intros [] t; cbn [negb]; go; [|now apply set_fact_off].
    intros St b Hb. injection Hb as <-. split; [unfold settled; reflexivity|]. intros v _ <-. right. auto. }
  assert (M : forall m t, wp (setControlModes c m) s2 t (fun t' o s' => match o with
     | Done a => wp (if negb a then Ret false else modify (set_streaming z) ;; Ret true) s' t' (set_fact VOCAB_CC_CONFIG_STREAMING_CMD x s)
     | Trouble e => set_fact VOCAB_CC_CONFIG_STREAMING_CMD x s t' (Trouble e) s' end)).
  { intros m t. apply exec_wp. intros tr' o' s' E. apply set_modes in E. destruct E as (-> & _ & b & -> & _). apply G. }
  destruct orb; [apply M|]. destruct Z.eqb; [apply M|]. destruct Z.eqb; [apply M|]. go. apply (G false).
Qed.
Lemma set_all_preset c m : forall fine s tr o s1, exec (set_all c m fine) s tr o s1 -> settled s -> forall b, o = Done b ->
  settled s1 /\ forall v, v <> VOCAB_CC_NOT_SET -> streamingCommand s1 = v ->
    (streamingCommand s = v /\ forall x, ~ In (VOCAB_CC_CONFIG_STREAMING_CMD, x) m) \/
    (exists x, In (VOCAB_CC_CONFIG_STREAMING_CMD, x) m /\ to_int x = Some v).
Proof.
  induction m as [|[k x] m IH]; intros fine s tr o s1 E St b Hb; cbn [set_all] in E.
  - cbn in E. destruct E as (_ & _ & ->). split; [exact St|]. intros v _ Hv. left. split; [exact Hv|]. auto.
  - apply exec_bind in E. destruct E as [(b1 & t1 & t2 & s2 & -> & E1 & E2)|(e & -> & _)]; [|discriminate].
    destruct (set_param_preset _ _ _ _ _ _ _ E1 St b1 eq_refl) as (St2 & P1).
    destruct (IH _ _ _ _ _ E2 St2 b Hb) as (St3 & P2). split; [exact St3|]. intros v Nv Hv.
    destruct (P2 v Nv Hv) as [(H1 & H2)|(y & Y1 & Y2)].
    + destruct (P1 v Nv H1) as [(H3 & H4)|(H3 & _ & H5)].
      * left. split; [exact H3|]. intros y [Hy|Hy]; [injection Hy as -> ->; congruence|now apply (H2 y)].
      * right. exists x. subst k. split; [now left|exact H5].
    + right. exists y. split; [now right|exact Y2].
Qed.

(** the operations that start a movement *)
Definition starts (s : st) (tr : list event) (o : outcome bool) (s1 : st) : Prop :=
  (o = Done true -> streamingCommand s1 = VOCAB_CC_NOT_SET) /\ (o = Done false -> untouched s s1).
Lemma starts_no s tr o s1 : o <> Done true -> untouched s s1 -> starts s tr o s1.
Proof. intros H U. split; [contradiction|auto]. Qed.
Lemma starts_yes s tr b v s1 : starts s tr (Done b) (if b then setCurrentState v s1 else s) .
Proof. destruct b; split; intros; try discriminate; [reflexivity|split; reflexivity]. Qed.
Lemma failfast_same c fuel q s tr o s' : exec (doFailFastChecks c fuel q) s tr o s' -> s' = s.
Proof. apply all_same. apply all_failfast; repeat split; auto. Qed.
Ltac stno := apply starts_no; [discriminate|split; reflexivity].
Lemma movl_starts c fuel x s tr o s1 : exec (movl c fuel x) s tr o s1 -> starts s tr o s1.
Proof.
  apply wp_sound. unfold movl. go. intros a. brk; go; [|stno]. intros y. brk; go; [|stno].
  assert (K : forall obj t, wp (match obj with
    | None => Ret false
    | Some xd_obj =>
      modify (set_trajectories []) ;;
      let* seconds := look duration in
      let* ts := need OutOfBounds (build (fun f t => Line f t seconds) (vals y) xd_obj (seq 0 (length x / 6))) in
      modify (set_trajectories ts) ;;
      let* fine := (if enableFailFast c then doFailFastChecks c fuel (fill 0 (numJoints c) (vals a)) else Ret true) in
      if negb fine then Ret false else
      let* m := setControlModes c (if usePosdMovl c then VOCAB_CM_POSITION_DIRECT else VOCAB_CM_VELOCITY) in
      if negb m then Ret false else
      let* now := ask Now in
      modify (set_startTime (num now)) ;;
      modify (set_cmcSuccess true) ;;
      modify (setCurrentState VOCAB_CC_MOVL_CONTROLLING) ;;
      Ret true end) s t (starts s)).
  { intros [obj|] t; go; [|stno]. destruct build as [ts|]; go; [|stno].
    rewrite wp_bind. apply exec_wp. intros tr2 o2 s2 E.
    assert (s2 = set_trajectories ts (set_trajectories [] s)) as ->.
    { destruct enableFailFast; [now apply failfast_same in E|]. cbn in E. tauto. }
    destruct o2 as [[]|]; cbn [negb]; go; try stno.
    apply wp_modes. intros tm b _. destruct b; cbn [negb]; go; [|stno]. intros now. split; [reflexivity|discriminate]. }
  destruct (Z.eqb (referenceFrame s) TCP_FRAME); go; [intros r; destruct (ok r)|]; [exact (K (Some (vals r)) _)|exact (K None _)|exact (K (Some x) _)].
Qed.
Lemma movv_starts c x s tr o s1 : exec (movv c x) s tr o s1 -> starts s tr o s1.
Proof.
  apply wp_sound. unfold movv. go. intros a. brk; go; [|stno]. intros y. brk; go; [|stno].
  destruct build as [ts|]; go; [|stno]. apply wp_modes. intros tm b _. destruct b; cbn [negb]; go; [|stno]. intros now.
  split; [reflexivity|discriminate].
Qed.
Lemma gcmp_starts c s tr o s1 : exec (gcmp c) s tr o s1 -> starts s tr o s1.
Proof.
  apply wp_sound. unfold gcmp. apply wp_modes. intros tm b _. destruct b; cbn [negb]; go; [|stno]. split; [reflexivity|discriminate].
Qed.
Lemma forc_starts c f s tr o s1 : exec (forc c f) s tr o s1 -> starts s tr o s1.
Proof.
  apply wp_sound. unfold forc. go. destruct Z.eqb; go; [stno|]. apply wp_modes. intros tm b _. destruct b; cbn [negb]; go; [|stno].
  split; [reflexivity|discriminate].
Qed.
Definition moves (s : st) (tr : list event) (o : outcome bool) (s1 : st) : Prop :=
  forall b, o = Done b -> (streamingCommand s1 = VOCAB_CC_NOT_SET) \/ (untouched s s1 /\ (b = false \/ motions tr = [])).
Lemma movj_starts c x s tr o s1 : exec (movj c x) s tr o s1 -> moves s tr o s1.
Proof.
  intros E. apply movj_runs in E. intros b Hb. destruct E as [|aq ai|aq ai|aq ai|aq ai ag|aq ai ag w av T tr o s1 E1 E2 E3 E4 E5 E6].
  - right. split; [split; reflexivity|]. right; reflexivity.
  - right. split; [split; reflexivity|]. right; reflexivity.
  - discriminate.
  - right. split; [split; reflexivity|]. right; reflexivity.
  - right. split; [split; reflexivity|]. right; reflexivity.
  - assert (X : exists s0, untouched s s0 /\ movj_tail c x s ai av tr (Done b) s1 s0) by (exists (stored c s ag); split; [split; reflexivity|now subst o]).
    destruct X as (s0 & U & X). clear E6. inversion X as [| | |? ? tm ap ? Hv M L]; subst; auto. destruct (ok ap) eqn:Hp; [left; reflexivity|right; auto].
Qed.
Lemma relj_starts c x s tr o s1 : exec (relj c x) s tr o s1 -> moves s tr o s1.
Proof.
  unfold relj. cbn [bind look exec]. destruct Z.eqb; [apply movj_starts|]. intros E.
  apply exec_bind in E. destruct E as [(r & t1 & t2 & s2 & -> & E1 & E2)|(e & -> & _)]; [|intros b; discriminate].
  assert (s2 = s) as ->. { apply (all_same (stat c false)) in E1; [exact E1|]. apply all_stat; repeat split; auto. }
  assert (M : motions t1 = []).
  { apply (all_calls (fun x => motion x = false)) in E1; [|apply all_stat; repeat split; auto].
    clear - E1. unfold motions. induction E1 as [|e t H _ IH]; [reflexivity|]. cbn. now rewrite H. }
  destruct r as [[[y v] t]|].
  - destruct (add_to y x) as [z|]; cbn [bind need] in E2; [|cbn in E2; destruct E2 as (_ & -> & _); intros b; discriminate].
    apply movj_starts in E2. intros b Hb. rewrite motions_app, M. apply (E2 b Hb).
  - cbn in E2. destruct E2 as (-> & -> & ->). intros b Hb. right. split; [split; reflexivity|]. injection Hb as <-. now left.
Qed.

Lemma op_preset c o s tr b s1 : settled s -> exec (do_op c o) s tr (Done b) s1 ->
  settled s1 /\ forall v, (0 < v)%Z -> v <> VOCAB_CC_NOT_SET -> streamingCommand s1 = v ->
    (streamingCommand s = v /\ no_change (o, tr, b)) \/ presets (o, tr, b) v.
Proof.
  intros St E.
  assert (KU : untouched s s1 -> no_change (o, tr, b) -> settled s1 /\ forall v, (0 < v)%Z -> v <> VOCAB_CC_NOT_SET -> streamingCommand s1 = v ->
    (streamingCommand s = v /\ no_change (o, tr, b)) \/ presets (o, tr, b) v).
  { intros (A & B) N. split; [unfold settled in *; now rewrite A, B|]. intros v _ _ <-. left. auto. }
  assert (KO : streamingCommand s1 = VOCAB_CC_NOT_SET -> settled s1 /\ forall v, (0 < v)%Z -> v <> VOCAB_CC_NOT_SET -> streamingCommand s1 = v ->
    (streamingCommand s = v /\ no_change (o, tr, b)) \/ presets (o, tr, b) v).
  { intros A. split; [unfold settled; congruence|]. intros; congruence. }
  assert (KS : starts s tr (Done b) s1 -> (b = false -> no_change (o, tr, b)) -> settled s1 /\ forall v, (0 < v)%Z -> v <> VOCAB_CC_NOT_SET -> streamingCommand s1 = v ->
    (streamingCommand s = v /\ no_change (o, tr, b)) \/ presets (o, tr, b) v).
  { intros (A & B) N. destruct b; [apply KO; auto|]. apply KU; auto. }
  assert (KM : moves s tr (Done b) s1 -> (b = false \/ motions tr = [] -> no_change (o, tr, b)) -> settled s1 /\ forall v, (0 < v)%Z -> v <> VOCAB_CC_NOT_SET -> streamingCommand s1 = v ->
    (streamingCommand s = v /\ no_change (o, tr, b)) \/ presets (o, tr, b) v).
  { intros A N. destruct (A b eq_refl) as [B|(B1 & B2)]; [now apply KO|]. apply KU; auto. }
  assert (KI : unset s s1 -> (streamingCommand s <> VOCAB_CC_NOT_SET -> untouched s s1 /\ no_change (o, tr, b)) -> settled s1 /\ forall v, (0 < v)%Z -> v <> VOCAB_CC_NOT_SET -> streamingCommand s1 = v ->
    (streamingCommand s = v /\ no_change (o, tr, b)) \/ presets (o, tr, b) v).
  { intros U N. destruct (Z.eq_dec (streamingCommand s) VOCAB_CC_NOT_SET) as [Z|Z].
    - apply KO. destruct U as [(U & _)|U]; congruence.
    - destruct (N Z). now apply KU. }
  destruct o; cbn [do_op] in E.
  - apply KU; [|exact I]. apply (all_untouched _ _ _ _ _) in E; [exact E|]. pall. op_all; repeat split; auto.
  - apply KU; [|exact I]. apply (all_untouched _ _ _ _ _) in E; [exact E|]. pall. op_all; repeat split; auto.
  - apply KM; [now apply movj_starts in E|auto].
  - apply KM; [now apply relj_starts in E|auto].
  - apply KS; [now apply movl_starts in E|auto].
  - apply KS; [now apply movv_starts in E|auto].
  - apply KS; [now apply gcmp_starts in E|auto].
  - apply KS; [now apply forc_starts in E|auto].
  - apply KO. apply stop_spec in E. destruct E as (_ & -> & _). reflexivity.
  - apply KI.
    + apply (all_unset _ _ _ _ _) in E; [exact E|]. apply all_wait; repeat split; auto using unset_set, unset_refl; intros; left; auto.
    + intros N. specialize (St N). unfold wait in E. cbn [bind look exec] in E. rewrite St in E. cbn in E. destruct E as (-> & _ & ->).
      split; [split; reflexivity|reflexivity].
  - apply KU; [|exact I]. apply (all_untouched _ _ _ _ _) in E; [exact E|]. op_all; repeat split; auto.
  - apply KU; [|exact I]. cbn in E. destruct E as (_ & _ & ->). split; reflexivity.
  - apply KU; [|exact I]. apply (all_untouched _ _ _ _ _) in E; [exact E|]. pall. op_all; repeat split; auto.
  - apply KU; [|exact I]. apply (all_untouched _ _ _ _ _) in E; [exact E|]. pall. op_all; repeat split; auto.
  - apply KU; [|exact I]. apply (all_untouched _ _ _ _ _) in E; [exact E|]. pall. op_all; repeat split; auto.
  - destruct (set_param_preset _ _ _ _ _ _ _ E St b eq_refl) as (S1 & P). split; [exact S1|]. intros v V0 V1 V2.
    destruct (P v V1 V2) as [H|(H1 & H2 & H3)]; [now left|]. right. split; [exact H1|]. split; [exact H2|]. now apply to_int_spec.
  - apply KU; [|exact I]. cbn in E. destruct E as (_ & _ & ->). split; reflexivity.
  - unfold setParameters in E. cbn [bind look exec] in E. destruct (Z.eqb_spec (currentState s) VOCAB_CC_NOT_CONTROLLING) as [C0|C0]; cbn [negb] in E.
    + destruct (set_all_preset _ _ _ _ _ _ _ E St b eq_refl) as (S1 & P). split; [exact S1|]. intros v V0 V1 V2.
      destruct (P v V1 V2) as [H|(x & H1 & H2)]; [now left|]. right. exists x. split; [exact H1|]. now apply to_int_spec.
    + cbn in E. destruct E as (_ & _ & ->). apply KI; [apply unset_refl|]. intros N. specialize (St N). congruence.
  - apply KU; [|exact I]. cbn in E. destruct E as (_ & _ & ->). split; reflexivity.
  - apply exec_then in E. destruct E as ([] & E & ->). apply KI.
    + pose proof (run_spec _ _ _ _ _ E) as (_ & [(_ & _ & -> & _)|(_ & [(_ & _ & _ & ->)|[(_ & (_ & _ & _ & (k & ->) & _) & _)|[(_ & _ & (t3 & a & tr' & _ & _ & _ & _ & X) & _)|(e & X & _)]]])]).
      * apply unset_refl.
      * left; split; reflexivity.
      * right; reflexivity.
      * destruct X as [(-> & _)|(_ & [(-> & _)|(-> & _)])]; [left; split; reflexivity|right; reflexivity..].
      * discriminate.
    + intros N. apply idle_cycle in E; [|auto]. destruct E as (-> & -> & _). split; [split; reflexivity|reflexivity].
Qed.
Lemma history_preset c s h s' : settled s -> history c s h s' -> settled s' /\ forall v, (0 < v)%Z -> v <> VOCAB_CC_NOT_SET -> streamingCommand s' = v ->
  (streamingCommand s = v /\ Forall no_change h) \/ preset_last h v.
Proof.
  intros St H. induction H as [s|s s1 s2 o tr b h E H IH].
  - split; [exact St|]. intros. left. auto.
  - destruct (op_preset _ _ _ _ _ _ St E) as (St1 & P1). destruct (IH St1) as (St2 & P2). split; [exact St2|]. intros v V0 V1 V2.
    destruct (P2 v V0 V1 V2) as [(H1 & H2)|(h1 & e & h2 & -> & H1 & H2)].
    + destruct (P1 v V0 V1 H1) as [(H3 & H4)|H3]; [left; auto|]. right. exists [], (o, tr, b), h. auto.
    + right. exists ((o, tr, b) :: h1), e, h2. auto.
Qed.

(** ** The streaming commands *)
Lemma motions_in tr : motions tr <> [] -> exists x a, In (x, a) tr /\ motion x = true.
Proof.
  intros H. destruct (motions tr) as [|x l] eqn:E; [congruence|]. assert (I0 : In x (motions tr)) by (rewrite E; now left).
  apply filter_In in I0. destruct I0 as (I1 & I2). apply in_map_iff in I1. destruct I1 as ([y a] & <- & I1). eauto.
Qed.
Definition stream_post (c : cfg) (cmds : list Z) (m : Z) (s : st) (tr : list event) (o : outcome Datatypes.unit) (s' : st) : Prop :=
  s' = s /\ (motions tr <> [] -> currentState s = VOCAB_CC_NOT_CONTROLLING /\ In (streamingCommand s) cmds /\
    exists a tr', tr = (GetControlModes, a) :: tr' /\ all_in_mode (numJoints c) m a).
Ltac quiet := let X := fresh in split; [reflexivity|intros X; exfalso; apply X; reflexivity].
Lemma pose_stream c x s tr o s' : exec (pose c x) s tr o s' -> stream_post c [VOCAB_CC_POSE; VOCAB_CC_MOVI] VOCAB_CM_POSITION_DIRECT s tr o s'.
Proof.
  apply wp_sound. unfold pose. go. destruct (Z.eqb_spec (currentState s) VOCAB_CC_NOT_CONTROLLING) as [E1|E1]; cbn [negb]; go; [|quiet].
  destruct (negb (Z.eqb (streamingCommand s) VOCAB_CC_POSE) && negb (Z.eqb (streamingCommand s) VOCAB_CC_MOVI)) eqn:E2; go; [quiet|].
  assert (I0 : In (streamingCommand s) [VOCAB_CC_POSE; VOCAB_CC_MOVI]).
  { destruct (Z.eqb_spec (streamingCommand s) VOCAB_CC_POSE) as [->|_]; [now left|]. destruct (Z.eqb_spec (streamingCommand s) VOCAB_CC_MOVI) as [->|_]; [right; now left|discriminate]. }
  apply wp_check. intros a b A. destruct b; cbn [negb]; go; [|quiet]. pose proof (proj1 A eq_refl) as A'.
  intros aq. brk; go; [|quiet]. intros ai. brk; go; [|quiet]. destruct first_n as [t|]; go; [|quiet].
  destruct minus as [d|]; go; [|quiet]. destruct checkJointLimitsDir as [[]|]; go; cbn [negb]; go; [|quiet|quiet].
  intros z. split; [reflexivity|]. intros _. split; [exact E1|]. split; [exact I0|]. cbn. eauto.
Qed.
Lemma twist_stream c x s tr o s' : exec (twist c x) s tr o s' -> stream_post c [VOCAB_CC_TWIST] VOCAB_CM_VELOCITY s tr o s'.
Proof.
  intros E. apply twist_runs in E. destruct E as (-> & E). split; [reflexivity|]. intros M.
  destruct E as [tr _ ->|b _|b tr e E1 E2 A _|b tr d E1 E2 A _|b aq aw d E1 E2 A O1 O2 V L D]; try (exfalso; apply M; reflexivity);
    (split; [exact E1|]; split; [left; symmetry; exact E2|]; eauto).
Qed.
Lemma wrench_stream c x s tr o s' : exec (wrench c x) s tr o s' -> stream_post c [VOCAB_CC_WRENCH] VOCAB_CM_TORQUE s tr o s'.
Proof.
  apply wp_sound. unfold wrench, read_encoders. go. destruct (Z.eqb_spec (currentState s) VOCAB_CC_NOT_CONTROLLING) as [E1|E1]; cbn [negb]; go; [|quiet].
  destruct (Z.eqb_spec (streamingCommand s) VOCAB_CC_WRENCH) as [E2|E2]; cbn [negb]; go; [|quiet].
  apply wp_check. intros a b A. destruct b; cbn [negb]; go; [|quiet]. pose proof (proj1 A eq_refl) as A'.
  assert (K : forall t o, stream_post c [VOCAB_CC_WRENCH] VOCAB_CM_TORQUE s ((GetControlModes, a) :: t) o s).
  { intros t o'. split; [reflexivity|]. intros _. split; [exact E1|]. split; [now left|]. eauto. }
  intros a1. brk; go; [|intros; apply K]. intros a2. brk; go; [|intros; apply K]. intros a3. brk; go; [|intros; apply K].
  destruct checkJointLimits as [[]|]; go; cbn [negb]; go; [|intros; apply K|apply K].
  intros at_. brk; go; [|intros; apply K]. destruct first_n; go; [intros; apply K|apply K].
Qed.
