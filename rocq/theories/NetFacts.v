(** Lemmas about the controller used through the network. *)
From Coq Require Import Reals ZArith List Bool Lra Lia.
From Verif Require Import Kdl Vocab Bcc BccSpec BccFacts BccAll BccFacts6 BccFacts7 BccLineSpec BccCmdSpec Sys SysSpec Net NetSpec.
From Verif Require Rpc RpcSpec RpcFacts SysFacts5.
Import ListNotations.
Open Scope R_scope.
Local Notation S := Datatypes.S.
Local Notation length := List.length.

(** ** Values that can be transmitted *)
Definition int32 (z : Z) : Prop := (-2147483648 <= z <= 2147483647)%Z.
Definition healthy (s : st) : Prop :=
  In (currentState s) (VOCAB_CC_NOT_CONTROLLING :: controlling_states) /\
  In (referenceFrame s) [BASE_FRAME; TCP_FRAME] /\
  In (streamingCommand s) [VOCAB_CC_NOT_SET; VOCAB_CC_POSE; VOCAB_CC_MOVI; VOCAB_CC_TWIST; VOCAB_CC_WRENCH].
Definition keeps_health (s s' : st) : Prop := healthy s -> healthy s'.
Local Notation allh := (all (fun _ => True) keeps_health).

Lemma health_set_state v s : In v (VOCAB_CC_NOT_CONTROLLING :: controlling_states) -> keeps_health s (setCurrentState v s).
Proof. intros H (A & B & C). unfold setCurrentState, healthy. cbn. repeat split; auto. all: auto. Qed.
Ltac hl := match goal with
  | |- keeps_health _ (setCurrentState VOCAB_CC_NOT_CONTROLLING _) => apply health_set_state; now left
  | |- keeps_health _ (setCurrentState _ _) => apply health_set_state; right; assumption
  | |- keeps_health _ _ => intros H; exact H
  end.
Ltac hall := repeat match goal with |- _ /\ _ => split end; intros; first [exact I | hl].
Lemma health_preset c n : allh (presetStreamingCommand c n).
Proof.
  unfold presetStreamingCommand. pall; [intros; hl|..]; apply all_modes; hall.
Qed.
Lemma health_frame v n : negb (Reqb v (IZR BASE_FRAME)) && negb (Reqb v (IZR TCP_FRAME)) = false -> to_int v = Some n -> forall s, keeps_health s (set_frame n s).
Proof.
  intros E T s (A & B & C). unfold healthy, set_frame. cbn [currentState streamingCommand referenceFrame]. repeat split; auto.
  apply andb_false_iff in E. unfold Reqb in E. destruct (Req_EM_T v (IZR BASE_FRAME)) as [->|_]; [apply to_int_IZR in T; subst; now left|].
  destruct (Req_EM_T v (IZR TCP_FRAME)) as [->|_]; [apply to_int_IZR in T; subst; right; now left|]. cbn in E. destruct E; discriminate.
Qed.
Lemma health_set c k v : allh (setParameter c k v).
Proof.
  unfold setParameter. pall_step; [cbn; auto|]. destruct (negb (Z.eqb _ _)); [exact I|].
  destruct (Z.eqb k VOCAB_CC_CONFIG_GAIN). { pall. intros; hl. }
  destruct (Z.eqb k VOCAB_CC_CONFIG_TRAJ_DURATION). { pall. intros; hl. }
  destruct (Z.eqb k VOCAB_CC_CONFIG_CMC_PERIOD). { pall; auto. intros; hl. }
  destruct (Z.eqb k VOCAB_CC_CONFIG_WAIT_PERIOD). { pall; auto. intros; hl. }
  destruct (Z.eqb k VOCAB_CC_CONFIG_FRAME).
  { destruct (negb (Reqb v (IZR BASE_FRAME)) && _) eqn:E; [exact I|]. destruct (to_int v) as [n|] eqn:T; cbn [need bind]; [|exact I]. pall. eapply health_frame; eauto. }
  destruct (Z.eqb k VOCAB_CC_CONFIG_STREAMING_CMD); [|exact I].
  destruct (to_int v) as [n|] eqn:T; cbn [need bind]; [|exact I].
  assert (D : In n [VOCAB_CC_POSE; VOCAB_CC_MOVI; VOCAB_CC_TWIST; VOCAB_CC_WRENCH] \/ presetStreamingCommand c n = (modify (setCurrentState VOCAB_CC_NOT_CONTROLLING) ;; Ret false)).
  { unfold presetStreamingCommand. destruct (Z.eqb_spec n VOCAB_CC_POSE) as [->|]; [left; cbn; auto|]. destruct (Z.eqb_spec n VOCAB_CC_MOVI) as [->|]; [left; cbn; auto|].
    destruct (Z.eqb_spec n VOCAB_CC_TWIST) as [->|]; [left; cbn; auto|]. destruct (Z.eqb_spec n VOCAB_CC_WRENCH) as [->|]; [left; cbn; auto|]. right. reflexivity. }
  destruct D as [D|D].
  - pall; [apply health_preset|]. intros s (A & B & C). repeat split; auto. cbn [streamingCommand set_streaming]. now right.
  - rewrite D. cbn. split; [intros; hl|exact I].
Qed.
Lemma health_method c fuel r : allh (method c fuel r).
Proof.
  destruct r; cbn [method]; unfold yes_no; (apply all_bind; [|intro; exact I]);
    try (unfold act; pall; exact I); try (unfold getParameter, getParameters; pall);
    try (match goal with |- all _ _ (setParameter _ _ _) => apply health_set end);
    try (match goal with |- all _ _ (setParameters _ _) => fail 1 | |- _ => op_all; hall end).
  unfold setParameters. pall. generalize true. induction params as [|[k v] m IH]; intros; cbn [set_all]; pall; [apply health_set|apply IH].
Qed.
Lemma health_run c : allh (run c).
Proof.
  unfold run, cycle_body, read_encoders. pall; try exact I; try (intros; hl).
  all: first [apply all_stop; hall | apply all_handleMovj; hall | apply all_handleMovlVel; hall | apply all_handleMovlPosd; hall | apply all_handleMovv; hall
        | apply all_handleGcmp; hall | apply all_handleForc; hall ].
Qed.
Lemma exec_health {A} (p : prog A) s tr o s' : allh p -> exec p s tr o s' -> healthy s -> healthy s'.
Proof. intros H E. exact (proj1 (all_exec _ keeps_health _ (fun s X => X) (fun a b d X Y Z => Y (X Z)) H _ _ _ _ E)). Qed.

(** ** What the methods give back *)
Lemma split_done {A B} (p : prog A) (k : A -> B) s tr b s' : exec (let* a := p in Ret (k a)) s tr (Done b) s' -> exists a, b = k a /\ exec p s tr (Done a) s'.
Proof.
  intros E. apply exec_bind in E. destruct E as [(a & t1 & t2 & s1 & -> & E1 & E2)|(e & X & _)]; [|discriminate].
  destruct E2 as (-> & X & ->). injection X as ->. rewrite app_nil_r. eauto.
Qed.
Lemma join_done {A B} (p : prog A) (k : A -> B) s tr a s' : exec p s tr (Done a) s' -> exec (let* a := p in Ret (k a)) s tr (Done (k a)) s'.
Proof. intros E. apply exec_bind. left. exists a, tr, [], s'. rewrite app_nil_r. repeat split. exact E. Qed.
Lemma stat_state c s tr x v t s' : exec (stat c true) s tr (Done (Some (x, v, t))) s' -> v = currentState s.
Proof.
  intros E. refine (wp_sound (stat c true) s (fun _ o s1 => forall y, o = Done (Some y) -> snd (fst y) = currentState s) tr _ s' _ E _ eq_refl).
  clear E. unfold stat. destruct (preciselyTimed c); cbn; intro a; destruct (ok a); cbn; try (intros y Y; discriminate Y); intros b d; destruct (ok d); cbn; intros y Y; try discriminate Y; now injection Y as <-.
Qed.
Lemma healthy_frame s : healthy s -> int32 (referenceFrame s) /\ referenceFrame s <> VOCAB_CC_FAILED.
Proof. intros (_ & H & _). cbn in H. unfold int32. destruct H as [<-|[<-|[]]]; vm_compute; repeat split; discriminate. Qed.
Lemma healthy_streaming s : healthy s -> int32 (streamingCommand s) /\ streamingCommand s <> VOCAB_CC_FAILED.
Proof. intros (_ & _ & H). cbn in H. unfold int32. destruct H as [<-|[<-|[<-|[<-|[<-|[]]]]]]; vm_compute; repeat split; discriminate. Qed.
Lemma healthy_state s : healthy s -> currentState s <> VOCAB_CC_FAILED.
Proof. intros (H & _). cbn in H. repeat destruct H as [H|H]; try contradiction; rewrite <- H; vm_compute; discriminate. Qed.
Lemma gives_yes_no r (p : prog bool) s tr a s' : (RpcSpec.gives r Rpc.Okay) -> exec (yes_no p) s tr (Done a) s' -> RpcSpec.gives r a.
Proof. intros G E. apply split_done in E. destruct E as (b & -> & _). destruct b; [exact G|]. destruct r; exact I. Qed.
Lemma gives_method c fuel r s tr a s' : healthy s -> exec (method c fuel r) s tr (Done a) s' -> RpcSpec.gives r a.
Proof.
  intros H E. destruct r; cbn [method] in E; try (eapply gives_yes_no; [exact I|exact E]).
  - apply split_done in E. destruct E as ([[[x v] t]|] & -> & E); [|exact I]. apply stat_state in E. subst. now apply healthy_state.
  - apply split_done in E. destruct E as ([q|] & -> & E); exact I.
  - apply split_done in E. destruct E as (b & -> & E). exact I.
  - apply split_done in E. destruct E as (b & -> & E). exact I.
  - apply split_done in E. destruct E as (b & -> & E). exact I.
  - apply split_done in E. destruct E as (o & -> & E). unfold getParameter in E. cbn in E. destruct E as (_ & E & _). injection E as ->.
    destruct (healthy_frame _ H) as (F1 & F2). destruct (healthy_streaming _ H) as (S1 & S2).
    destruct (read_param k s) as [v|] eqn:R; [|exact I]. cbn [RpcSpec.gives]. unfold RpcSpec.transmissible.
    enough (X : k = VOCAB_CC_CONFIG_FRAME \/ k = VOCAB_CC_CONFIG_STREAMING_CMD -> exists z, v = IZR z /\ int32 z /\ z <> VOCAB_CC_FAILED).
    { split; intros K; destruct (X K) as (z & -> & B & N); [eauto|]. intros EQ. apply eq_IZR in EQ. contradiction. }
    intros [->| ->]; cbn in R; injection R as <-; eauto.
  - apply split_done in E. destruct E as (o & -> & E). unfold getParameters in E. cbn [look exec] in E. destruct E as (_ & E & _). injection E as ->. cbn.
    destruct (healthy_frame _ H) as (F1 & F2). destruct (healthy_streaming _ H) as (S1 & S2). split.
    + cbn. repeat constructor; cbn; intuition discriminate.
    + repeat constructor; cbn; unfold RpcSpec.transmissible; intros [X|X]; try discriminate X; eauto.
Qed.

(** ** One action *)
Lemma streams_answered r : streams r = false <-> RpcSpec.answered r.
Proof. destruct r; cbn; split; auto; try discriminate; contradiction. Qed.
Lemma stream_okay c fuel r s tr a s' : streams r = true -> exec (method c fuel r) s tr (Done a) s' -> a = Rpc.Okay.
Proof. intros SR E. destruct r; try discriminate SR; cbn [method] in E; apply split_done in E; destruct E as (u & -> & _); reflexivity. Qed.
Lemma served_request r b base : RpcSpec.answered r -> RpcSpec.expressible r -> Rpc.client_send r = Some b ->
  exists k, Rpc.respond (Rpc.At tt) Rpc.plain base b = Rpc.Ask tt r k /\
    forall a, RpcSpec.gives r a -> exists b', k a = Some b' /\ Rpc.client_receive r b' = Some a.
Proof.
  intros A X CS. assert (G0 : RpcSpec.gives r Rpc.Failed) by (destruct r; exact I).
  pose proof (RpcFacts.remote_same tt base (fun _ _ => Rpc.Failed) r A X G0) as M. unfold RpcSpec.remote_call in M. rewrite CS in M.
  destruct (Rpc.respond (Rpc.At tt) Rpc.plain base b) as [|b0|[] q k] eqn:RS; [discriminate| |].
  { destruct (Rpc.client_receive r b0); discriminate. }
  exists k. assert (q = r) as ->. { destruct (k Rpc.Failed) as [b0|]; [|discriminate]. destruct (Rpc.client_receive r b0); [|discriminate]. now injection M. }
  split; [reflexivity|]. intros a G. clear M. pose proof (RpcFacts.remote_same tt base (fun _ _ => a) r A X G) as M. unfold RpcSpec.remote_call in M. rewrite CS, RS in M.
  destruct (k a) as [b'|]; [|discriminate]. exists b'. split; [reflexivity|]. destruct (Rpc.client_receive r b'); [|discriminate]. now injection M as ->.
Qed.
Lemma remote_local c base s a tr x s' : healthy s -> can_be_sent a -> remotely c base s a tr x s' <-> locally c s a tr x s'.
Proof.
  intros H X. split.
  - intros R. destruct R as [r b s tr s' b' x CS SR AN CR|r b s tr s' CS SR TK|s tr s' E].
    + cbn in X. apply streams_answered in SR. destruct (served_request r b base SR X CS) as (k & K1 & K2).
      destruct AN as [b q k' fuel s tr a s' b' RS E K|b b' s RS]; rewrite K1 in RS; [|discriminate]. injection RS as <- <-.
      destruct (K2 a (gives_method c fuel _ _ _ _ _ H E)) as (b1 & B1 & B2). rewrite K in B1. injection B1 as <-. rewrite CR in B2. injection B2 as ->. exact (by_call c _ fuel _ _ _ _ E).
    + cbn in X. destruct (RpcFacts.streamed_same tt r) as (b1 & B1 & B2); [intros A; apply streams_answered in A; congruence|exact X|].
      rewrite CS in B1. injection B1 as <-. destruct TK as [b q fuel s tr a s' OR E|b s OR]; rewrite OR in B2; [|discriminate]. injection B2 as ->.
      pose proof (stream_okay _ _ _ _ _ _ _ SR E) as ->. exact (by_call c _ fuel _ _ _ _ E).
    + constructor; exact E.
  - intros L. destruct L as [r fuel s tr a s' E|s tr s' E]; [|constructor; exact E].
    cbn in X. destruct (streams r) eqn:SR.
    + destruct (RpcFacts.streamed_same tt r) as (b1 & B1 & B2); [intros A; apply streams_answered in A; congruence|exact X|].
      pose proof (stream_okay _ _ _ _ _ _ _ SR E) as ->. exact (by_stream c base _ _ _ _ _ B1 SR (obeyed c _ _ fuel _ _ _ _ B2 E)).
    + pose proof SR as A. apply streams_answered in A. pose proof (gives_method c fuel _ _ _ _ _ H E) as G.
      assert (CS : exists b, Rpc.client_send r = Some b).
      { pose proof (RpcFacts.remote_same tt base (fun _ _ => a) r A X G) as M. unfold RpcSpec.remote_call in M. destruct (Rpc.client_send r) as [b|]; [eauto|discriminate]. }
      destruct CS as (b & CS). destruct (served_request r b base A X CS) as (k & K1 & K2). destruct (K2 a G) as (b' & B1 & B2).
      exact (by_rpc c base r b s tr s' b' a CS SR (passed_on c base Rpc.plain _ _ _ fuel _ _ _ _ _ K1 E B1) B2).
Qed.
Lemma local_health c s a tr x s' : locally c s a tr x s' -> healthy s -> healthy s'.
Proof. intros L. destruct L as [r fuel s tr a s' E|s tr s' E]; intros H; [exact (exec_health _ _ _ _ _ (health_method _ _ _) E H)|exact (exec_health _ _ _ _ _ (health_run _) E H)]. Qed.
Lemma session_same c base s h s' : healthy s -> sendable h -> session (remotely c base) s h s' <-> session (locally c) s h s'.
Proof.
  intros H S. split; intros X.
  - induction X as [|s s1 s2 a tr x h P X IH]; [constructor|]. inversion S as [|? ? S1 S2]; subst. apply (remote_local _ _ _ _ _ _ _ H S1) in P.
    econstructor; [exact P|]. apply IH; [|exact S2]. eapply local_health; eauto.
  - induction X as [|s s1 s2 a tr x h P X IH]; [constructor|]. inversion S as [|? ? S1 S2]; subst.
    econstructor; [apply (remote_local _ _ _ _ _ _ _ H S1); exact P|]. apply IH; [|exact S2]. eapply local_health; eauto.
Qed.
Lemma open_health g dur cmc w posd ff frame timed n refs user robot sj started c s :
  open g dur cmc w posd ff frame timed n refs user robot sj started = Some (c, s) -> healthy s.
Proof.
  unfold open. destruct andb; [discriminate|]. destruct andb eqn:F; [discriminate|]. destruct refs as [sp|]; [|discriminate].
  destruct open_limits as [[[[a b] d] e]|]; [|discriminate]. destruct (negb (Nat.eqb sj n)); [discriminate|]. destruct (negb started); [discriminate|].
  intros H. injection H as <- <-. apply andb_false_iff in F. rewrite !negb_false_iff, !Z.eqb_eq in F. repeat split; cbn; auto. destruct F; auto.
Qed.
Theorem transparent g dur cmc w posd ff frame timed n refs user robot sj started c s base h s' :
  open g dur cmc w posd ff frame timed n refs user robot sj started = Some (c, s) -> sendable h ->
  (session (remotely c base) s h s' <-> session (locally c) s h s').
Proof. intros O S. apply session_same; [|exact S]. eapply open_health; exact O. Qed.

(** ** Sessions as histories *)
Definition op_of (fuel : nat) (r : Rpc.request) : op :=
  match r with
  | Rpc.RStat => OStat | Rpc.RInv x => OInv x | Rpc.RMovj x => OMovj x | Rpc.RRelj x => ORelj x | Rpc.RMovl x => OMovl fuel x | Rpc.RMovv x => OMovv x
  | Rpc.RGcmp => OGcmp | Rpc.RForc f => OForc f | Rpc.RStop => OStop | Rpc.RWait t => OWait fuel t | Rpc.RTool x => OTool x | Rpc.RAct k => OAct k
  | Rpc.RPose x => OPose x | Rpc.RTwist x => OTwist x | Rpc.RWrench w => OWrench w | Rpc.RSet k v => OSet k v | Rpc.RGet k => OGet k | Rpc.RSets m => OSets m | Rpc.RGets => OGets
  end.
Lemma method_op c fuel r s tr a s' : exec (method c fuel r) s tr (Done a) s' -> exists b, exec (do_op c (op_of fuel r)) s tr (Done b) s'.
Proof.
  intros E. destruct r; cbn [method op_of do_op] in *; unfold yes_no in E; apply split_done in E; destruct E as (b & _ & E);
    try (exists b; exact E); eexists; (eapply join_done; exact E).
Qed.
Lemma run_op c s tr s' : exec (run c) s tr (Done tt) s' -> exec (do_op c OCycle) s tr (Done true) s'.
Proof. intros E. exact (join_done (run c) (fun _ => true) _ _ _ _ E). Qed.
Lemma answered_history c base conv s b tr b' s' : answered c base conv s b tr b' s' -> exists e, history c s e s' /\ trace_of e = tr.
Proof.
  intros A. destruct A as [b q k fuel s tr a s' b' _ E _|b b' s _]; [|exists []; split; [constructor|reflexivity]].
  destruct (method_op _ _ _ _ _ _ _ E) as (x & X). exists [(op_of fuel q, tr, x)]. split; [repeat econstructor; exact X|]. unfold trace_of. cbn. apply app_nil_r.
Qed.
Lemma taken_history c s b tr s' : taken c s b tr s' -> exists e, history c s e s' /\ trace_of e = tr.
Proof.
  intros A. destruct A as [b q fuel s tr a s' _ E|b s _]; [|exists []; split; [constructor|reflexivity]].
  destruct (method_op _ _ _ _ _ _ _ E) as (x & X). exists [(op_of fuel q, tr, x)]. split; [repeat econstructor; exact X|]. unfold trace_of. cbn. apply app_nil_r.
Qed.
Lemma cycle_history c s tr s' : exec (run c) s tr (Done tt) s' -> exists e, history c s e s' /\ trace_of e = tr.
Proof. intros E. exists [(OCycle, tr, true)]. split; [repeat econstructor; now apply run_op|]. unfold trace_of. cbn. apply app_nil_r. Qed.
Lemma handled_history c base conv s m tr b s' : handled c base conv s m tr b s' -> exists e, history c s e s' /\ trace_of e = tr.
Proof. intros H. destruct H; eauto using answered_history, taken_history, cycle_history. Qed.
Lemma history_append c s1 h1 s2 h2 s3 : history c s1 h1 s2 -> history c s2 h2 s3 -> history c s1 (h1 ++ h2) s3.
Proof. intros H. induction H; cbn; auto. intros X. econstructor; eauto. Qed.
Lemma session_history {A B} c (P : st -> A -> list event -> B -> st -> Prop) s h s' : (forall s a tr x s', P s a tr x s' -> exists e, history c s e s' /\ trace_of e = tr) ->
  session P s h s' -> exists e, history c s e s' /\ trace_of e = calls h.
Proof.
  intros W X. induction X as [|s s1 s2 a tr x h Y X IH]; [exists []; split; [constructor|reflexivity]|].
  destruct (W _ _ _ _ _ Y) as (e1 & H1 & T1). destruct IH as (e2 & H2 & T2). exists (e1 ++ e2). split; [eapply history_append; eauto|].
  unfold calls. cbn [map concat fst snd]. fold (calls h). rewrite <- T2, <- T1. unfold trace_of. now rewrite map_app, concat_app.
Qed.
Theorem messages_limited d robot cc sc c s v base conv h s' v' : assembled d robot cc sc c s v -> session (handled c base conv) s h s' -> served d v (calls h) v' ->
  forall x a q, In (x, a) (calls h) -> sends_positions x q -> within_robot_limits robot (numJoints c) q.
Proof.
  intros AS X SV. destruct (session_history c _ _ _ _ (fun s a tr x s' => handled_history c base conv s a tr x s') X) as (e & H & T). rewrite <- T in *.
  exact (SysFacts5.positions_limited _ _ _ _ _ _ _ _ _ _ AS H SV).
Qed.
