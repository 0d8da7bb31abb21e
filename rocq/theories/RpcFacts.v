(** Lemmas about the client and the server. *)
From Coq Require Import Reals ZArith List Bool Lia Lra.
From Verif Require Import Kdl KdlFacts KdlRot Vocab Rpc RpcSpec.
From Verif Require Bcc BccFacts BccExamples KinRep KinRepSpec KinRepFacts KinRepFacts2 KinRepFacts3.
Import ListNotations.
Open Scope R_scope.
Local Notation S := Datatypes.S.

(** ** Values *)
Lemma numbers_floats x : numbers (map VFloat x) = x.
Proof. unfold numbers. rewrite map_map. cbn. apply map_id. Qed.
Lemma numbers_tl v x : numbers (tl (v :: map VFloat x)) = x.
Proof. apply numbers_floats. Qed.
Lemma is_vocab_spec k : is_vocab_param k = true <-> k = VOCAB_CC_CONFIG_FRAME \/ k = VOCAB_CC_CONFIG_STREAMING_CMD.
Proof. unfold is_vocab_param. rewrite orb_true_iff, !Z.eqb_eq. tauto. Qed.
Lemma value_sent k v : transmissible k v -> exists x, mkValue k v = Some x /\ asValue k (Some x) = v.
Proof.
  intros T. unfold mkValue, asValue. destruct is_vocab_param eqn:E; [|eauto].
  apply is_vocab_spec in E. destruct (T E) as (z & -> & B). rewrite BccExamples.to_int_Z by exact B. cbn. eauto.
Qed.
Lemma value_answer k v : transmissible k v -> (k = VOCAB_CC_CONFIG_FRAME \/ k = VOCAB_CC_CONFIG_STREAMING_CMD -> v <> IZR VOCAB_CC_FAILED) ->
  exists x, mkValue k v = Some x /\ asValue k (Some x) = v /\ checkSuccess [x] = true.
Proof.
  intros T N. unfold mkValue, asValue. destruct is_vocab_param eqn:E; [|eexists; repeat split; reflexivity].
  apply is_vocab_spec in E. destruct (T E) as (z & -> & B). rewrite BccExamples.to_int_Z by exact B. cbn.
  eexists; repeat split. unfold checkSuccess. cbn. apply negb_true_iff, Z.eqb_neq. intros ->. now apply (N E).
Qed.

(** ** Maps *)
Lemma emplace_new k v m : ~ In k (map fst m) -> Bcc.emplace k v m = m ++ [(k, v)].
Proof.
  intros H. unfold Bcc.emplace. destruct existsb eqn:E; auto. apply existsb_exists in E. destruct E as ([k' v'] & I & E).
  cbn in E. apply Z.eqb_eq in E. subst k'. exfalso. apply H. change k with (fst (k, v')). now apply in_map.
Qed.
Lemma write_read m : Forall (fun e => transmissible (fst e) (snd e)) m -> exists b, write_params m = Some b /\ length b = length m /\
  (forall acc, NoDup (map fst (acc ++ m)) -> read_params b acc = Some (acc ++ m) /\ merge_params b acc = Some (acc ++ m)) /\
  (m <> [] -> checkSuccess b = true).
Proof.
  induction m as [|[k v] m IH]; intros H.
  - exists []. cbn. repeat split; auto; rewrite ?app_nil_r; try reflexivity.
  - inversion H as [|? ? T F]; subst. destruct (value_sent _ _ T) as (x & E1 & E2). destruct (IH F) as (b & W & L & K & _).
    exists (VList [VVocab k; x] :: b). cbn [write_params fst snd] in *. rewrite E1, W. split; [reflexivity|]. split; [|split; [intros acc H0; split|reflexivity]].
    + cbn. now rewrite L.
    + assert (Bcc.emplace k v acc = acc ++ [(k, v)]) as EM.
      { apply emplace_new. rewrite map_app in H0. cbn [map fst] in H0. apply NoDup_remove_2 in H0. intros I. apply H0, in_or_app. now left. }
      cbn [read_params asList length Nat.eqb]. change (get [VVocab k; x] 0) with (Some (VVocab k)). change (get [VVocab k; x] 1) with (Some x).
      cbn [asVocab32]. rewrite E2, EM. destruct (K (acc ++ [(k, v)])) as (K1 & _); [now rewrite <- app_assoc|].
      rewrite K1, <- app_assoc. reflexivity.
    + assert (Bcc.emplace k v acc = acc ++ [(k, v)]) as EM.
      { apply emplace_new. rewrite map_app in H0. cbn [map fst] in H0. apply NoDup_remove_2 in H0. intros I. apply H0, in_or_app. now left. }
      cbn [merge_params asList]. change (get [VVocab k; x] 0) with (Some (VVocab k)). change (get [VVocab k; x] 1) with (Some x).
      cbn [asVocab32]. rewrite E2, EM. destruct (K (acc ++ [(k, v)])) as (_ & K1); [now rewrite <- app_assoc|].
      rewrite K1, <- app_assoc. reflexivity.
Qed.

(** ** State messages *)
Lemma nth_mid (x : list R) v t i : (i < length x)%nat -> asFloat64 (get (state_message x v t) (i + 1)) = nth i x 0.
Proof.
  intros L. unfold state_message, get. rewrite Nat.add_1_r. cbn [nth_error]. rewrite nth_error_app1 by now rewrite map_length.
  rewrite nth_error_map, (nth_error_nth' x 0 L). reflexivity.
Qed.
Lemma map_seq_nth (x : list R) f : (forall i, (i < length x)%nat -> f i = nth i x 0) -> map f (seq 0 (length x)) = x.
Proof.
  intros H. apply nth_ext with (d := 0) (d' := 0); rewrite map_length, seq_length; [reflexivity|].
  intros i L. rewrite <- (H i L). assert (nth i (map f (seq 0 (length x))) 0 = nth i (map f (seq 0 (length x))) (f 0%nat)) as ->.
  { apply nth_indep. now rewrite map_length, seq_length. }
  rewrite map_nth, seq_nth by exact L. reflexivity.
Qed.
Lemma message_length x v t : length (state_message x v t) = S (S (length x)).
Proof. unfold state_message. cbn. rewrite app_length, map_length. cbn. lia. Qed.
Lemma message_parts x v t : Nat.ltb (length (state_message x v t)) 2 = false /\
  map (fun i => asFloat64 (get (state_message x v t) (i + 1))) (seq 0 (length (state_message x v t) - 2)) = x /\
  asFloat64 (get (state_message x v t) (length (state_message x v t) - 1)) = t.
Proof.
  rewrite message_length. repeat split.
  - replace (S (S (length x)) - 2)%nat with (length x) by lia. apply map_seq_nth. intros i L. now apply nth_mid.
  - replace (S (S (length x)) - 1)%nat with (S (length x)) by lia. unfold state_message, get. cbn [nth_error].
    rewrite nth_error_app2 by now rewrite map_length. rewrite map_length, Nat.sub_diag. reflexivity.
Qed.
Lemma message_stat x v t : v <> VOCAB_CC_FAILED -> client_stat (state_message x v t) = Some (Stated x v t).
Proof.
  intros N. unfold client_stat. destruct (message_parts x v t) as (-> & -> & ->).
  assert (checkSuccess (state_message x v t) = true) as ->; [|reflexivity].
  unfold checkSuccess, state_message. cbn. apply negb_true_iff. now apply Z.eqb_neq.
Qed.
Lemma message_read now x v t s : fk_read now (state_message x v t) s = Some (Fk now v t x).
Proof. unfold fk_read. destruct (message_parts x v t) as (-> & -> & ->). reflexivity. Qed.

(** ** Remote calls (C39) *)
Lemma nonempty_length v (x : list R) : x <> [] -> Nat.ltb 1 (length (v :: map VFloat x)) = true.
Proof. destruct x; [congruence|reflexivity]. Qed.
Theorem remote_same {C} (c : C) base behave r : answered r -> expressible r -> gives r (behave c r) ->
  remote_call (respond (At c) plain base) behave r = Some ([(c, r)], behave c r).
Proof.
  intros A X G. unfold remote_call. destruct r; try contradiction; cbn [client_send command expressible gives] in *.
  - (* stat *) cbn. destruct (behave c RStat) eqn:B; try contradiction; cbn; try reflexivity.
    change (VVocab state :: map VFloat x ++ [VFloat timestamp]) with (state_message x state timestamp). now rewrite message_stat.
  - (* inv *) cbn -[Nat.ltb]. unfold handleFunction. rewrite nonempty_length, numbers_tl by exact X. cbn -[checkSuccess].
    destruct (behave c (RInv xd)) eqn:B; try contradiction; cbn -[checkSuccess]; [reflexivity|].
    rewrite numbers_floats. destruct q; reflexivity.
  - cbn -[Nat.ltb]. unfold handleConsumer. rewrite nonempty_length, numbers_tl by exact X. cbn. destruct (behave c (RMovj xd)); try contradiction; reflexivity.
  - cbn -[Nat.ltb]. unfold handleConsumer. rewrite nonempty_length, numbers_tl by exact X. cbn. destruct (behave c (RRelj xd)); try contradiction; reflexivity.
  - cbn -[Nat.ltb]. unfold handleConsumer. rewrite nonempty_length, numbers_tl by exact X. cbn. destruct (behave c (RMovl xd)); try contradiction; reflexivity.
  - cbn -[Nat.ltb]. unfold handleConsumer. rewrite nonempty_length, numbers_tl by exact X. cbn. destruct (behave c (RMovv xdotd)); try contradiction; reflexivity.
  - cbn. destruct (behave c RGcmp); try contradiction; reflexivity.
  - cbn -[Nat.ltb]. unfold handleConsumer. rewrite nonempty_length, numbers_tl by exact X. cbn. destruct (behave c (RForc fd)); try contradiction; reflexivity.
  - cbn. destruct (behave c RStop); try contradiction; reflexivity.
  - cbn. destruct (behave c (RWait timeout)); try contradiction; reflexivity.
  - cbn -[Nat.ltb]. unfold handleConsumer. rewrite nonempty_length, numbers_tl by exact X. cbn. destruct (behave c (RTool x)); try contradiction; reflexivity.
  - cbn. destruct (behave c (RAct action)); try contradiction; reflexivity.
  - (* set *) destruct X as (N & T). destruct (value_sent _ _ T) as (x & E1 & E2). rewrite E1. cbn -[VOCAB_CC_CONFIG_PARAMS asValue].
    unfold isGroupParam. cbn -[VOCAB_CC_CONFIG_PARAMS asValue]. rewrite (proj2 (Z.eqb_neq _ _) N). unfold handleSet. cbn -[asValue]. rewrite E2.
    destruct (behave c (RSet k v)); try contradiction; reflexivity.
  - (* get *) cbn -[VOCAB_CC_CONFIG_PARAMS asValue]. unfold isGroupParam. cbn -[VOCAB_CC_CONFIG_PARAMS asValue]. rewrite (proj2 (Z.eqb_neq _ _) X).
    unfold handleGet. cbn -[asValue]. destruct (behave c (RGet k)) eqn:B; try contradiction; cbn -[asValue checkSuccess]; [reflexivity|].
    destruct G as (T & N). destruct (value_answer _ _ T N) as (x & -> & E & OK). cbn -[asValue checkSuccess]. rewrite OK. cbn -[asValue]. now rewrite E.
  - (* sets *) destruct X as (N & D & F). destruct (write_read _ F) as (b & W & L & K & _). destruct (K [] D) as (K1 & _). rewrite W. cbn -[read_params].
    unfold handleSets. destruct b as [|x b]; [destruct params; [congruence|discriminate L]|]. cbn -[read_params]. rewrite K1. cbn.
    destruct (behave c (RSets params)); try contradiction; reflexivity.
  - (* gets *) cbn. destruct (behave c RGets) eqn:B; try contradiction; cbn -[checkSuccess merge_params write_params]; [reflexivity|].
    destruct G as (D & F). destruct (write_read _ F) as (b & W & L & K & S). destruct (K [] D) as (_ & K1). rewrite W. cbn -[checkSuccess merge_params].
    rewrite K1. destruct m as [|e m]; [destruct b; [reflexivity|discriminate L]|]. now rewrite S by congruence.
Qed.
Theorem streamed_same {C} (c : C) r : ~ answered r -> expressible r -> exists b, client_send r = Some b /\ onRead (At c) b = Some (c, r).
Proof.
  intros A X. destruct r; try (exfalso; apply A; exact Logic.I); cbn [client_send command expressible] in *; eexists; (split; [reflexivity|]);
    unfold onRead; cbn -[Nat.ltb numbers tl length]; rewrite nonempty_length, numbers_tl by exact X; reflexivity.
Qed.
(** an argument that the protocol cannot express *)
Theorem remote_empty {C} (c : C) base behave : remote_call (respond (At c) plain base) behave (RMovj []) = Some ([], Failed) /\
  remote_call (respond (At c) plain base) behave (RSets []) = Some ([], Failed).
Proof. split; reflexivity. Qed.
Theorem remote_get_params {C} (c : C) base behave : behave c RGets = Params [] ->
  remote_call (respond (At c) plain base) behave (RGet VOCAB_CC_CONFIG_PARAMS) = Some ([(c, RGets)], Val 0).
Proof. intros H. cbn. rewrite H. reflexivity. Qed.
Theorem remote_half {C} (c : C) base behave : behave c (RSet VOCAB_CC_CONFIG_FRAME 0) = Okay ->
  remote_call (respond (At c) plain base) behave (RSet VOCAB_CC_CONFIG_FRAME (1 / 2)) = Some ([(c, RSet VOCAB_CC_CONFIG_FRAME 0)], Okay).
Proof. intros H. unfold remote_call. cbn [client_send]. unfold mkValue. cbn -[Bcc.to_int]. rewrite BccExamples.to_int_half. cbn. rewrite H. reflexivity. Qed.

(** ** Lost connection (C40) *)
Theorem lost_not_failed r : lost_call r <> Some Failed.
Proof.
  unfold lost_call. destruct (client_send r); [|discriminate]. destruct r; cbn; discriminate.
Qed.
Theorem lost_succeeds r b : client_send r = Some b -> r <> RStat -> exists a, lost_call r = Some a /\ a <> Failed.
Proof. unfold lost_call. intros -> N. destruct r; cbn; eexists; try (split; [reflexivity|discriminate]). congruence. Unshelve. exact Failed. Qed.
Theorem server_failure r a : client_receive r fail = Some a -> a = Failed.
Proof. destruct r; cbn; congruence. Qed.

(** ** State streaming (C41) *)
Lemma received_app h1 h2 s : received (h1 ++ h2) s = match received h1 s with Some s' => received h2 s' | None => None end.
Proof. revert s. induction h1 as [|(now, ((x, v), t)) h IH]; intros s; [reflexivity|]. cbn -[fk_read state_message]. rewrite message_read. apply IH. Qed.
Lemma received_total h s : exists s', received h s = Some s'.
Proof. revert s. induction h as [|(now, ((x, v), t)) h IH]; intros s; [eexists; reflexivity|]. cbn -[fk_read state_message]. rewrite message_read. apply IH. Qed.
Lemma received_last h at_ x v t s : received (h ++ [(at_, (x, v, t))]) s = Some (Fk at_ v t x).
Proof. rewrite received_app. destruct (received_total h s) as (s' & ->). cbn -[fk_read state_message]. now rewrite message_read. Qed.
Theorem stat_fresh h at_ x v t s now timeout rpc : received (h ++ [(at_, (x, v, t))]) fk_new = Some s ->
  (now - at_ <= timeout -> stat true now timeout s rpc = Some (Stated x v t)) /\
  (timeout < now - at_ -> stat true now timeout s rpc = client_stat rpc).
Proof.
  rewrite received_last. intros [= <-]. unfold stat, fk_last. cbn [fk_x fk_state fk_time arrival]. split; intros H;
    destruct (BccFacts.Rleb_spec (now - at_) timeout); try lra; reflexivity.
Qed.
Theorem stat_none now timeout s rpc : received [] fk_new = Some s -> timeout < now -> stat true now timeout s rpc = client_stat rpc.
Proof. intros [= <-] H. unfold stat, fk_last, fk_new. cbn [arrival]. destruct (BccFacts.Rleb_spec (now - 0) timeout); [lra|reflexivity]. Qed.
Theorem stat_no_stream now timeout s rpc : stat false now timeout s rpc = client_stat rpc.
Proof. reflexivity. Qed.
Theorem stat_none_refuted : exists now timeout s, 0 < timeout /\ received [] fk_new = Some s /\
  forall rpc, stat true now timeout s rpc = Some (Stated [] 0 0).
Proof.
  exists (1 / 4), (1 / 2), fk_new. repeat split; [lra|]. intros rpc. unfold stat, fk_last, fk_new. cbn [arrival fk_x fk_state fk_time].
  destruct (BccFacts.Rleb_spec (1 / 4 - 0) (1 / 2)); [reflexivity|lra].
Qed.

(** ** Lives (C42) *)
Definition handle_of {C} (d : option C) (h0 : handle C) : handle C := match d with Some c => At c | None => h0 end.
Definition tracks {C} (last now : option C) (s : server C) : Prop :=
  device s = now /\ rpc_handle s = handle_of last Unset /\ stream_handle s = handle_of last Null /\
  (transform_handle s = None \/ transform_handle s = Some (handle_of last Unset)) /\
  (running s = true -> last <> None).
Lemma tracks_step {C} (o : life_op C) last now s : tracks last now s ->
  tracks (last_attached last [o]) (attached_now now [o]) (life_step s o).
Proof.
  intros (D & R & T & F & U). destruct o as [[| |c]|]; cbn.
  - repeat split; auto.
  - repeat split; auto.
  - unfold configureHandle. cbn. repeat split; auto; try congruence. cbn. destruct F as [-> | ->]; auto.
  - repeat split; cbn; auto; discriminate.
Qed.
Lemma last_cons {C} (o : life_op C) l last : last_attached last (o :: l) = last_attached (last_attached last [o]) l.
Proof. destruct o as [[]|]; reflexivity. Qed.
Lemma now_cons {C} (o : life_op C) l now : attached_now now (o :: l) = attached_now (attached_now now [o]) l.
Proof. destruct o as [[]|]; reflexivity. Qed.
Lemma tracks_life {C} (l : list (life_op C)) : forall last now s, tracks last now s ->
  tracks (last_attached last l) (attached_now now l) (life s l).
Proof.
  induction l as [|o l IH]; intros last now s H; [exact H|]. rewrite last_cons, now_cons. unfold life. cbn [fold_left].
  apply IH. now apply tracks_step.
Qed.
Lemma tracks_open {C} (sub : option C) period coord angle units : angle <> Unknown -> units <> Unknown ->
  tracks sub sub (snd (open sub period coord angle units)).
Proof.
  intros HA HU. destruct sub as [c|], coord, angle, units; try congruence; cbn; repeat split; cbn; auto; congruence.
Qed.
Theorem served_by_last {C} (sub : option C) period coord angle units l base b : angle <> Unknown -> units <> Unknown ->
  let s := life (snd (open sub period coord angle units)) l in
  (forall c, asked (respond (rpc_handle s) plain base b) = Some c -> last_attached sub l = Some c) /\
  (forall h t c, transform_handle s = Some h -> asked (respond h t base b) = Some c -> last_attached sub l = Some c) /\
  (forall c q, onRead (stream_handle s) b = Some (c, q) -> last_attached sub l = Some c) /\
  (forall c q k, run s = Some (c, q, k) -> attached_now sub l = Some c /\ q = RStat).
Proof.
  intros HA HU s. destruct (tracks_life l _ _ _ (tracks_open sub period coord angle units HA HU)) as (D & R & T & F & U). fold s in D, R, T, F, U.
  assert (AD : forall (d : C) t c, asked (dispatch d t base b) = Some c -> d = c).
  { intros d t c. unfold dispatch, handleStat, handleFunction, handleConsumer, handleRunnable, handleWait, handleAct, handleSet, handleGet, handleSets, handleGets.
    repeat (match goal with |- context [if ?x then _ else _] => destruct x | |- context [match incoming ?u ?v with _ => _ end] => destruct (incoming u v) as [[[] ?]|]
      | |- context [match read_params ?u ?v with _ => _ end] => destruct (read_params u v) end; cbn; try congruence). }
  split; [|split; [|split]].
  - intros c. rewrite R. destruct (last_attached sub l); cbn; [|congruence]. intros H. now apply AD in H as ->.
  - intros h t c E. destruct F as [F|F]; rewrite F in E; [discriminate|]. injection E as <-.
    destruct (last_attached sub l); cbn; [|congruence]. intros H. now apply AD in H as ->.
  - intros c q. rewrite T. destruct (last_attached sub l) as [d|]; cbn [handle_of onRead]; [|discriminate].
    destruct (Nat.ltb 1 (length b)); repeat match goal with |- context [if ?x then _ else _] => destruct x end; try discriminate; now intros [= <- _].
  - intros c q k. unfold run. rewrite D. destruct (running s); [|discriminate]. destruct (attached_now sub l); [|discriminate].
    intros [= <- <- _]. split; reflexivity.
Qed.
(** nothing is asked of a controller by the thread or the streaming commands before attach *)
Theorem quiet_before {C} period coord angle units (l : list (life_op C)) base b : angle <> Unknown -> units <> Unknown ->
  last_attached None l = None ->
  let s := life (snd (open None period coord angle units)) l in
  onRead (stream_handle s) b = None /\ run s = None /\ respond (rpc_handle s) plain base b = Undefined.
Proof.
  intros HA HU N s. destruct (tracks_life l _ _ _ (tracks_open None period coord angle units HA HU)) as (D & R & T & F & U). fold s in D, R, T, F, U.
  rewrite N in *. cbn in *. rewrite R, T. repeat split. unfold run. destruct (running s); [|reflexivity]. now destruct U.
Qed.
Theorem unknown_representation {C} (c : C) period coord units base b : let s := open (Some c) period coord Unknown units in
  fst s = true /\ respond (rpc_handle (snd s)) plain base b = Undefined.
Proof. split; reflexivity. Qed.
Theorem detach_refuted {C} (c : C) period coord angle units base x : angle <> Unknown -> units <> Unknown -> x <> [] ->
  exists k, respond (rpc_handle (life (snd (open None period coord angle units)) [Attach (Controller c); Detach])) plain base (VVocab VOCAB_CC_MOVJ :: map VFloat x)
    = Ask c (RMovj x) k.
Proof.
  intros HA HU N. destruct (tracks_life [Attach (Controller c); Detach] _ _ _ (tracks_open None period coord angle units HA HU)) as (D & R & _).
  rewrite R. cbn -[Nat.ltb tl numbers length]. unfold handleConsumer. rewrite nonempty_length, numbers_tl by exact N. cbn. eexists. reflexivity.
Qed.
Theorem detach_stream_refuted {C} (c : C) period coord angle units x : angle <> Unknown -> units <> Unknown -> x <> [] ->
  onRead (stream_handle (life (snd (open None period coord angle units)) [Attach (Controller c); Detach])) (VVocab VOCAB_CC_TWIST :: map VFloat x)
    = Some (c, RTwist x).
Proof.
  intros HA HU N. destruct (tracks_life [Attach (Controller c); Detach] _ _ _ (tracks_open None period coord angle units HA HU)) as (D & _ & T & _).
  rewrite T. cbn -[Nat.ltb tl numbers length]. rewrite nonempty_length, numbers_tl by exact N. reflexivity.
Qed.

(** ** Transform port (C43) *)
Import KinRep KinRepSpec.
Theorem pose_converted {C} (d : C) base c o u p lp lo rm cmd b : pose_command cmd -> client_send (cmd (lp ++ lo)) = Some b ->
  pose_supported c o = true -> means_pos c lp p -> means o u p lo rm -> regular_log rm \/ o = AXIS_ANGLE_SCALED -> lp ++ lo <> [] ->
  exists r k, respond (At d) (transform c o u) base b = Ask d (cmd (vlist p ++ vlist r)) k /\ rot_of r = rm.
Proof.
  intros PC SB PS MP MO RL NE.
  destruct (KinRepFacts2.encode_means (fun _ => lp ++ lo) 0 0 c o u p lp lo rm [] PS) as (m' & r & E & X & RM & _); auto.
  { now rewrite app_nil_r. }
  exists r. assert (IC : incoming (transform c o u) (lp ++ lo) = Some (true, vlist p ++ vlist r)).
  { cbn. unfold in_place. rewrite E, X. reflexivity. }
  destruct PC; cbn [client_send command] in SB; injection SB as <-; cbn -[Nat.ltb tl numbers length transform]; unfold handleConsumer, handleFunction;
    rewrite nonempty_length, numbers_tl by exact NE; rewrite IC; eexists; split; (reflexivity || exact RM).
Qed.
Theorem pose_refused {C} (d : C) base c o u x cmd b : pose_command cmd -> client_send (cmd x) = Some b ->
  pose_supported c o = false \/ (length x < expected_size c o)%nat -> respond (At d) (transform c o u) base b = Reply fail.
Proof.
  intros PC SB H.
  assert (IC : exists y, incoming (transform c o u) x = Some (false, y)).
  { cbn. unfold in_place. destruct H as [H|H].
    - destruct (KinRepFacts2.runs_some _ _ _ _ (KinRepFacts2.encode_refuses (fun _ => x) 0 0 c o u H)) as (a & m' & -> & -> & _). eauto.
    - rewrite KinRepFacts2.encode_short by exact H. eauto. }
  destruct IC as (y & IC). assert (D : x = [] \/ x <> []) by (destruct x; [left; reflexivity | right; discriminate]).
  destruct D as [-> | D]; destruct PC; cbn [client_send command] in SB; injection SB as <-; try reflexivity;
    cbn -[Nat.ltb tl numbers length transform map]; unfold handleConsumer, handleFunction;
    rewrite nonempty_length, numbers_tl by exact D; rewrite IC; reflexivity.
Qed.
Theorem state_converted {C} (d : C) base c o u p r v t : writable_pos c p -> writable o p r ->
  exists k lp lo, respond (At d) (transform c o u) base [VVocab VOCAB_CC_STAT] = Ask d RStat k /\
    k (Stated (vlist p ++ vlist r) v t) = Some (state_message (lp ++ lo) v t) /\ means_pos c lp p /\ means o u p lo (rot_of r).
Proof.
  intros WP WO. destruct (KinRepFacts2.decode_means (fun _ => vlist p ++ vlist r) 0 0 c o u p r []) as (m' & lp & lo & E & X & MP & MO & _); auto.
  exists (fun a => match a with Stated x state time => match outgoing (transform c o u) x with None => None | Some (false, _) => Some fail
     | Some (true, y) => Some (VVocab state :: map VFloat y ++ [VFloat time]) end | _ => Some fail end), lp, lo.
  split; [reflexivity|]. split; [|split; assumption]. cbn [outgoing transform]. unfold in_place. rewrite E, X. reflexivity.
Qed.
Theorem torque_converted {C} (d : C) base : exists k,
  respond (At d) (transform CARTESIAN AXIS_ANGLE_SCALED DEGREES) base [VVocab VOCAB_CC_FORC; VFloat 0; VFloat 0; VFloat 0; VFloat 0; VFloat 0; VFloat 180]
   = Ask d (RForc [0; 0; 0; 0; 0; PI]) k.
Proof.
  eexists. cbn. unfold degToRad. replace (0 * (PI / 180)) with 0 by field. replace (180 * (PI / 180)) with PI by field. reflexivity.
Qed.
Theorem second_dropped {C} (d : C) base : exists k,
  respond (At d) (transform CARTESIAN AXIS_ANGLE_SCALED RADIANS) base (VVocab VOCAB_CC_MOVJ :: map VFloat [1; 2; 3; 4; 5; 6; 7; 8; 9; 10; 11; 12])
   = Ask d (RMovj [1; 2; 3; 4; 5; 6]) k.
Proof. eexists. reflexivity. Qed.

(** ** Refutations in the form "there is a case" *)
Theorem empty_refuted : exists (behave : Datatypes.unit -> request -> reply) r, answered r /\ gives r (behave tt r) /\ behave tt r = Okay /\
  forall base, remote_call (respond (At tt) plain base) behave r = Some ([], Failed).
Proof. exists (fun _ _ => Okay), (RSets []). repeat split. Qed.
Theorem empty_vector_refuted : exists (behave : Datatypes.unit -> request -> reply) r, answered r /\ gives r (behave tt r) /\ r = RMovj [] /\ behave tt r = Okay /\
  forall base, remote_call (respond (At tt) plain base) behave r = Some ([], Failed).
Proof. exists (fun _ _ => Okay), (RMovj []). repeat split. Qed.
Theorem group_refuted : exists (behave : Datatypes.unit -> request -> reply) r, answered r /\ gives r (behave tt r) /\ behave tt r = Failed /\
  forall base, remote_call (respond (At tt) plain base) behave r = Some ([(tt, RGets)], Val 0).
Proof. exists (fun _ q => match q with RGets => Params [] | _ => Failed end), (RGet VOCAB_CC_CONFIG_PARAMS). repeat split. Qed.
Theorem truncated_refuted : exists (behave : Datatypes.unit -> request -> reply) k v w, v <> w /\ (forall q, behave tt q = Okay) /\
  forall base, remote_call (respond (At tt) plain base) behave (RSet k v) = Some ([(tt, RSet k w)], Okay).
Proof. exists (fun _ _ => Okay), VOCAB_CC_CONFIG_FRAME, (1 / 2), 0. split; [lra|]. split; [reflexivity|]. intros base. now apply remote_half. Qed.
Theorem lost_refuted : exists r, answered r /\ lost_call r = Some Okay.
Proof. exists (RMovj [1; 2; 3; 0; 0; 0]). split; reflexivity || exact Logic.I. Qed.
Theorem lost_stat_refuted : exists r b, client_send r = Some b /\ lost_call r = None.
Proof. exists RStat. eexists. split; reflexivity. Qed.
Theorem detached_refuted : exists (l : list (life_op nat)) c b, attached_now None l = None /\
  forall base, asked (respond (rpc_handle (life (snd (open None 50 Absent Absent Absent)) l)) plain base b) = Some c.
Proof. exists [Attach (Controller 1%nat); Detach], 1%nat, [VVocab VOCAB_CC_MOVJ; VFloat 1]. split; reflexivity. Qed.
Theorem detached_stream_refuted : exists (l : list (life_op nat)) c b r, attached_now None l = None /\
  onRead (stream_handle (life (snd (open None 50 Absent Absent Absent)) l)) b = Some (c, r).
Proof. exists [Attach (Controller 1%nat); Detach], 1%nat, [VVocab VOCAB_CC_TWIST; VFloat 1], (RTwist [1]). split; reflexivity. Qed.
Theorem unattached_refuted : exists b, forall base,
  respond (rpc_handle (snd (open (@None nat) 50 Absent Absent Absent))) plain base b = Undefined.
Proof. exists [VVocab VOCAB_CC_STOP]. reflexivity. Qed.
Theorem unknown_refuted : exists coord angle units period, fst (open (Some 1%nat) period coord angle units) = true /\
  forall base b, respond (rpc_handle (snd (open (Some 1%nat) period coord angle units))) plain base b = Undefined.
Proof. exists Absent, Unknown, Absent, 50%Z. split; reflexivity. Qed.
Theorem torque_refuted : exists c o u fd fd' b, client_send (RForc fd) = Some b /\ fd <> fd' /\
  forall C (d : C) base, exists k, respond (At d) (transform c o u) base b = Ask d (RForc fd') k.
Proof.
  exists CARTESIAN, AXIS_ANGLE_SCALED, DEGREES, [0; 0; 0; 0; 0; 180], [0; 0; 0; 0; 0; PI]. eexists. split; [reflexivity|]. split; [|exact @torque_converted].
  intros [= X]. pose proof PI_4. lra.
Qed.
Theorem second_refuted : exists c o u x y b, client_send (RMovj (x ++ y)) = Some b /\ length y = 6%nat /\
  forall C (d : C) base, exists k, respond (At d) (transform c o u) base b = Ask d (RMovj x) k.
Proof.
  exists CARTESIAN, AXIS_ANGLE_SCALED, RADIANS, [1; 2; 3; 4; 5; 6], [7; 8; 9; 10; 11; 12]. eexists. split; [reflexivity|]. split; [reflexivity|exact @second_dropped].
Qed.
