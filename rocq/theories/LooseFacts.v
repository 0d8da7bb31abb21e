(** Facts about streamed commands that take their time. *)
From Coq Require Import Reals ZArith List Bool Permutation Lia.
From Verif Require Import Kdl Vocab Bcc BccSpec BccFacts BccFacts2 BccFacts6 Net NetSpec NetFacts Loose LooseSpec.
From Verif Require Rpc RpcSpec RpcFacts Feed FeedFacts.
Import ListNotations.
Open Scope R_scope.
Local Notation S := Datatypes.S.
Local Notation length := List.length.

(** the messages on their way are those of the streamed commands [ws] *)
Definition on_way (w : list (list Rpc.value)) (ws : list Rpc.request) : Prop :=
  Forall2 (fun b r => Rpc.client_send r = Some b /\ streams r = true /\ RpcSpec.expressible r) w ws.
Lemma on_way_nth k : forall w ws b, on_way w ws -> nth_error w k = Some b ->
  exists r, nth_error ws k = Some r /\ Rpc.client_send r = Some b /\ streams r = true /\ RpcSpec.expressible r.
Proof.
  induction k as [|k IH]; intros w ws b F E; destruct F as [|x y w ws H F]; try discriminate; cbn in E.
  - injection E as ->. now exists y.
  - cbn. eauto.
Qed.
Lemma on_way_remove k : forall w ws, on_way w ws -> on_way (Feed.remove_at k w) (Feed.remove_at k ws).
Proof.
  induction k as [|k IH]; intros w ws F; destruct F as [|x y w ws H F]; cbn; try constructor; auto. now apply IH.
Qed.

Lemma taken_local c (base : list Rpc.value -> list Rpc.value) s r b tr s' : healthy s -> Rpc.client_send r = Some b -> streams r = true -> RpcSpec.expressible r ->
  taken c s b tr s' -> locally c s (Method r) tr Rpc.Okay s'.
Proof.
  intros H CS SR X TK. apply (remote_local c base); [exact H | exact X |]. now apply (by_stream c base r b).
Qed.

Lemma loose_direct c base : forall s w h s' w', loose_session c base s w h s' w' -> forall ws, healthy s -> loose_sendable h -> on_way w ws ->
  session (locally c) s (direct ws h) s'.
Proof.
  intros s w h s' w' L. induction L as [s w|s w a tr x s1 w1 h s2 w2 P L IH]; intros ws H SE W; [constructor|].
  inversion SE as [|? ? S1 S2]; subst. cbn in S1.
  destruct P as [r b s w CS SR|r tr x s s' w SR P|tr x s s' w P|k b tr s s' w E TK|k s w]; cbn [direct].
  - rewrite SR. apply IH; auto. apply Forall2_app; [exact W|]. constructor; [auto | constructor].
  - rewrite SR. apply remote_local in P; auto. econstructor; [exact P|]. apply IH; auto. eapply local_health; eauto.
  - apply remote_local in P; auto. econstructor; [exact P|]. apply IH; auto. eapply local_health; eauto.
  - destruct (on_way_nth k w ws b W E) as (r & -> & A & B & C).
    assert (locally c s (Method r) tr Rpc.Okay s') as P by (apply (taken_local c base s r b); auto).
    econstructor; [exact P|]. apply IH; auto; [eapply local_health; eauto | now apply on_way_remove].
  - apply IH; auto. now apply on_way_remove.
Qed.

(** ** what is carried out, of what was sent *)
Definition streamed (ws : list Rpc.request) : Prop := Forall (fun r => streams r = true) ws.
Lemma remove_perm {A} k : forall (l : list A) x, nth_error l k = Some x -> Permutation (x :: Feed.remove_at k l) l.
Proof.
  induction k as [|k IH]; intros [|y l] x E; try discriminate; cbn in E |- *.
  - injection E as ->. reflexivity.
  - rewrite perm_swap. constructor. now apply IH.
Qed.
Lemma remove_perm_rest {A} k (l : list A) : exists d, Permutation (d ++ Feed.remove_at k l) l.
Proof.
  revert k. induction l as [|y l IH]; intros [|k]; cbn.
  - now exists [].
  - now exists [].
  - now exists [y].
  - destruct (IH k) as (d & D). exists d. rewrite <- Permutation_middle. now constructor.
Qed.
Lemma carried_part h : forall ws, streamed ws -> exists rest, Permutation (carried_out (direct ws h) ++ rest) (ws ++ sent h).
Proof.
  induction h as [|[[a tr] x] h IH]; intros ws W.
  - exists ws. cbn. now rewrite app_nil_r.
  - destruct a as [[r|]|k|k]; cbn [direct sent].
    + destruct (streams r) eqn:SR; cbn [carried_out]; [|rewrite SR; now apply IH].
      destruct (IH (ws ++ [r])) as (rest & P); [apply Forall_app; split; [exact W | now repeat constructor]|].
      exists rest. now rewrite <- app_assoc in P.
    + cbn [carried_out]. now apply IH.
    + destruct (nth_error ws k) as [r|] eqn:E; [|now apply IH]. cbn [carried_out].
      assert (streams r = true) as -> by (unfold streamed in W; rewrite Forall_forall in W; apply W; eapply nth_error_In; exact E).
      destruct (IH (Feed.remove_at k ws)) as (rest & P); [now apply FeedFacts.remove_forall|].
      exists rest. cbn. rewrite P. change (r :: Feed.remove_at k ws ++ sent h) with ((r :: Feed.remove_at k ws) ++ sent h).
      now rewrite (remove_perm k ws r E).
    + destruct (IH (Feed.remove_at k ws)) as (rest & P); [now apply FeedFacts.remove_forall|].
      destruct (remove_perm_rest k ws) as (d & D). exists (d ++ rest).
      rewrite Permutation_app_swap_app, P, app_assoc. now rewrite D.
Qed.

Lemma part_refl {A} (l : list A) : part_of l l.
Proof. induction l; now constructor. Qed.
Lemma part_trans {A} : forall (m n l : list A), part_of m n -> part_of l m -> part_of l n.
Proof.
  intros m n l P. revert l. induction P as [|x m n P IH|x m n P IH]; intros l Q.
  - exact Q.
  - inversion Q; subst; [apply part_keep | apply part_skip]; now apply IH.
  - apply part_skip. now apply IH.
Qed.
Lemma part_remove {A} k : forall (l m : list A), part_of (Feed.remove_at k l ++ m) (l ++ m).
Proof.
  induction k as [|k IH]; intros [|x l] m; cbn.
  - apply part_refl.
  - apply part_skip, part_refl.
  - apply part_refl.
  - apply part_keep, IH.
Qed.
Lemma part_nil_left {A} (l : list A) : part_of [] l.
Proof. induction l; constructor; auto. Qed.
Lemma carried_order h : forall ws, streamed ws -> loose_in_order h -> part_of (carried_out (direct ws h)) (ws ++ sent h).
Proof.
  induction h as [|[[a tr] x] h IH]; intros ws W IO; [apply part_nil_left|].
  assert (loose_in_order h) as O' by (intros k t y I; apply (IO k t y); now right).
  destruct a as [[r|]|k|k]; cbn [direct sent].
  - destruct (streams r) eqn:SR; cbn [carried_out]; [|rewrite SR; now apply IH].
    specialize (IH (ws ++ [r])). rewrite <- app_assoc in IH. apply IH; auto. apply Forall_app; split; [exact W | now repeat constructor].
  - cbn [carried_out]. now apply IH.
  - assert (k = 0%nat) as -> by (apply (IO k tr x); now left). destruct ws as [|r ws]; cbn [nth_error]; [now apply IH|].
    inversion W; subst. cbn [carried_out]. rewrite H1. cbn. apply part_keep. now apply IH.
  - apply part_trans with (m := Feed.remove_at k ws ++ sent h); [apply part_remove|]. apply IH; auto. now apply FeedFacts.remove_forall.
Qed.
Lemma on_way_streamed w ws : on_way w ws -> streamed ws.
Proof. intros F. induction F as [|b r w ws (_ & A & _) F IH]; constructor; auto. Qed.
Lemma carried_all c base : forall s w h s' w', loose_session c base s w h s' w' -> forall ws, loose_sendable h -> on_way w ws ->
  loose_in_order h -> none_lost h -> exists ws', on_way w' ws' /\ carried_out (direct ws h) ++ ws' = ws ++ sent h.
Proof.
  intros s w h s' w' L. induction L as [s w|s w a tr x s1 w1 h s2 w2 P L IH]; intros ws SE W IO N.
  { exists ws. split; [exact W|]. cbn. now rewrite app_nil_r. }
  inversion SE as [|? ? S1 S2]; subst. cbn in S1.
  assert (loose_in_order h) as O' by (intros k t y I; apply (IO k t y); now right).
  assert (none_lost h) as N' by (intros k t y I; apply (N k t y); now right).
  destruct P as [r b s w CS SR|r tr x s s' w SR P|tr x s s' w P|k b tr s s' w E TK|k s w]; cbn [direct sent].
  - rewrite SR. specialize (IH (ws ++ [r])). rewrite <- app_assoc in IH. apply IH; auto.
    apply Forall2_app; [exact W|]. constructor; [auto | constructor].
  - rewrite SR. cbn [carried_out]. rewrite SR. now apply IH.
  - cbn [carried_out]. now apply IH.
  - assert (k = 0%nat) as -> by (apply (IO k tr Rpc.Okay); now left). destruct W as [|b' r w ws (A & B & C) W]; [discriminate|].
    cbn [nth_error carried_out]. rewrite B. cbn [Feed.remove_at app]. destruct (IH ws) as (ws' & W' & E'); auto. exists ws'. split; [exact W'|]. now rewrite E'.
  - exfalso. apply (N k [] Rpc.Okay). now left.
Qed.

(** ** after a stop *)
Definition off (s : st) : Prop := currentState s = VOCAB_CC_NOT_CONTROLLING /\ streamingCommand s = VOCAB_CC_NOT_SET.
Lemma stream_held c l m s tr s' : stream_post c l m s tr (Done tt) s' -> ~ In VOCAB_CC_NOT_SET l -> streamingCommand s = VOCAB_CC_NOT_SET ->
  motions tr = [] /\ s' = s.
Proof.
  intros (-> & H) N L. split; [|reflexivity]. destruct (motions tr) as [|y l'] eqn:E; [reflexivity|exfalso].
  destruct H as (_ & H & _); [discriminate|]. rewrite L in H. contradiction.
Qed.
Lemma quiet_method c fuel r s tr a s' : exec (method c fuel r) s tr (Done a) s' -> asks_nothing (Do (Method r)) ->
  off s -> motions tr = [] /\ off s'.
Proof.
  intros E A (C & L). destruct r; try contradiction A; cbn [method] in E; unfold yes_no in E; apply split_done in E; destruct E as (b & -> & E).
  - revert E. unfold stat. cbn [bind ask look exec]. intros (a1 & t1 & -> & E). destruct (ok a1); cbn [negb bind ask exec] in E.
    + destruct (preciselyTimed c); destruct E as (a2 & t2 & -> & a3 & t3 & -> & E); destruct (ok a3); cbn [negb bind look exec] in E; destruct E as (-> & _ & ->); now split.
    + destruct E as (-> & _ & ->). now split.
  - revert E. unfold inv. cbn [bind ask look exec]. intros (a1 & t1 & -> & E). destruct (ok a1); cbn [negb bind ask look exec] in E.
    + destruct E as (a2 & t2 & -> & E). destruct (ok a2); cbn in E; destruct E as (-> & _ & ->); now split.
    + destruct E as (-> & _ & ->). now split.
  - apply stop_spec in E. split; [exact (stopped_quiet _ _ _ _ _ E)|]. destruct E as (_ & -> & _). now split.
  - revert E. unfold wait. cbn [bind look exec]. rewrite C. cbn. intros (-> & _ & ->). now split.
  - revert E. unfold tool. cbn [bind ask exec]. intros (a1 & t1 & -> & E). destruct (ok a1); cbn [negb bind ask exec] in E.
    + destruct E as (a2 & t2 & -> & E). destruct (ok a2); cbn in E; destruct E as (-> & _ & ->); now split.
    + destruct E as (-> & _ & ->). now split.
  - cbn in E. destruct E as (-> & _ & ->). now split.
  - destruct b. apply pose_stream in E. apply stream_held in E; [|cbn; intuition discriminate|exact L]. destruct E as (-> & ->). now split.
  - destruct b. apply twist_stream in E. apply stream_held in E; [|cbn; intuition discriminate|exact L]. destruct E as (-> & ->). now split.
  - destruct b. apply wrench_stream in E. apply stream_held in E; [|cbn; intuition discriminate|exact L]. destruct E as (-> & ->). now split.
  - cbn in E. destruct E as (-> & _ & ->). now split.
  - cbn in E. destruct E as (-> & _ & ->). now split.
Qed.

Lemma quiet_local c s a tr x s' : locally c s a tr x s' -> asks_nothing (Do a) -> off s -> motions tr = [] /\ off s'.
Proof.
  intros L A C. destruct L as [r fuel s tr a s' E|s tr s' E].
  - exact (quiet_method c fuel r s tr a s' E A C).
  - revert E. unfold run. cbn [bind look exec]. rewrite (proj1 C). cbn. intros (-> & _ & ->). now split.
Qed.
Lemma streams_nothing r : streams r = true -> asks_nothing (Do (Method r)).
Proof. destruct r; try discriminate; intros _; exact I. Qed.

Lemma loose_quiet c base : forall s w h s' w', loose_session c base s w h s' w' -> forall ws, healthy s -> loose_sendable h -> on_way w ws ->
  off s -> at_ease h -> motions (loose_calls h) = [].
Proof.
  intros s w h s' w' L. induction L as [s w|s w a tr x s1 w1 h s2 w2 P L IH]; intros ws H SE W C A; [reflexivity|].
  inversion SE as [|? ? S1 S2]; subst. cbn in S1. inversion A as [|? ? A1 A2]; subst. cbn in A1.
  unfold loose_calls. cbn [map concat fst snd]. fold (loose_calls h).
  rewrite motions_app.
  destruct P as [r b s w CS SR|r tr x s s' w SR P|tr x s s' w P|k b tr s s' w E TK|k s w].
  - cbn. apply (IH (ws ++ [r])); auto. apply Forall2_app; [exact W|]. constructor; [auto | constructor].
  - apply remote_local in P; auto. destruct (quiet_local _ _ _ _ _ _ P A1 C) as (-> & C'). apply (IH ws); auto. eapply local_health; eauto.
  - apply remote_local in P; auto. destruct (quiet_local _ _ _ _ _ _ P A1 C) as (-> & C'). apply (IH ws); auto. eapply local_health; eauto.
  - destruct (on_way_nth k w ws b W E) as (r & _ & R1 & R2 & R3).
    assert (locally c s (Method r) tr Rpc.Okay s') as P by (apply (taken_local c base s r b); auto).
    destruct (quiet_local _ _ _ _ _ _ P (streams_nothing r R2) C) as (-> & C'). apply (IH (Feed.remove_at k ws)); auto; [eapply local_health; eauto | now apply on_way_remove].
  - cbn. apply (IH (Feed.remove_at k ws)); auto. now apply on_way_remove.
Qed.

Lemma loose_split c base : forall h1 h2 s w s' w', loose_session c base s w (h1 ++ h2) s' w' ->
  exists s1 w1, loose_session c base s w h1 s1 w1 /\ loose_session c base s1 w1 h2 s' w'.
Proof.
  induction h1 as [|e h1 IH]; intros h2 s w s' w' L; cbn in L.
  - exists s, w. split; [constructor | exact L].
  - inversion L as [|? ? ? ? ? ? ? ? ? ? P L']; subst. destruct (IH _ _ _ _ _ L') as (s2 & w2 & X & Y). exists s2, w2. split; [econstructor; eauto | exact Y].
Qed.
Lemma loose_kept c base : forall s w h s' w', loose_session c base s w h s' w' -> forall ws, healthy s -> loose_sendable h -> on_way w ws ->
  healthy s' /\ exists ws', on_way w' ws'.
Proof.
  intros s w h s' w' L. induction L as [s w|s w a tr x s1 w1 h s2 w2 P L IH]; intros ws H SE W; [eauto|].
  inversion SE as [|? ? S1 S2]; subst. cbn in S1.
  destruct P as [r b s w CS SR|r tr x s s' w SR P|tr x s s' w P|k b tr s s' w E TK|k s w].
  - apply (IH (ws ++ [r])); auto. apply Forall2_app; [exact W|]. constructor; [auto | constructor].
  - apply remote_local in P; auto. apply (IH ws); auto. eapply local_health; eauto.
  - apply remote_local in P; auto. apply (IH ws); auto. eapply local_health; eauto.
  - destruct (on_way_nth k w ws b W E) as (r & _ & R1 & R2 & R3).
    assert (locally c s (Method r) tr Rpc.Okay s') as P by (apply (taken_local c base s r b); auto).
    apply (IH (Feed.remove_at k ws)); auto; [eapply local_health; eauto | now apply on_way_remove].
  - apply (IH (Feed.remove_at k ws)); auto. now apply on_way_remove.
Qed.

Theorem loose_stopped g dur cmc wp posd ff frame timed n refs user robot sj started c s base h1 tr x h2 s' w' :
  open g dur cmc wp posd ff frame timed n refs user robot sj started = Some (c, s) ->
  loose_session c base s [] (h1 ++ (Do (Method Rpc.RStop), tr, x) :: h2) s' w' ->
  loose_sendable (h1 ++ (Do (Method Rpc.RStop), tr, x) :: h2) ->
  at_ease h2 -> motions (loose_calls h2) = [].
Proof.
  intros O L SE A. apply loose_split in L. destruct L as (s1 & w1 & L1 & L2).
  apply Forall_app in SE. destruct SE as (SE1 & SE2). inversion SE2 as [|? ? _ SE3]; subst.
  destruct (loose_kept _ _ _ _ _ _ _ L1 []) as (H1 & ws1 & W1); [now apply open_health in O | exact SE1 | constructor |].
  inversion L2 as [|? ? ? ? ? s2 w2 ? ? ? P2 L3]; subst.
  inversion P2 as [r b ? ? CS SR|r ? ? ? ? ? SR R| | |]; subst; [discriminate SR|].
  apply remote_local in R; [|exact H1 | exact I].
  inversion R as [r fuel ? ? a ? E|]; subst.
  assert (off s2) as C.
  { cbn [method] in E. unfold yes_no in E. apply split_done in E. destruct E as (b & _ & E). apply stop_spec in E. destruct E as (_ & -> & _). now split. }
  apply (loose_quiet _ _ _ _ _ _ _ L3 ws1); auto. eapply local_health; eauto.
Qed.

Theorem loose_transparent g dur cmc wp posd ff frame timed n refs user robot sj started c s base h s' w' :
  open g dur cmc wp posd ff frame timed n refs user robot sj started = Some (c, s) -> loose_sendable h -> loose_session c base s [] h s' w' ->
  session (locally c) s (direct [] h) s'.
Proof. intros O SE L. eapply loose_direct; [exact L | now apply open_health in O | exact SE | constructor]. Qed.
Theorem at_most_once h : exists rest, Permutation (carried_out (direct [] h) ++ rest) (sent h).
Proof. apply (carried_part h []). constructor. Qed.
Theorem in_their_order h : loose_in_order h -> part_of (carried_out (direct [] h)) (sent h).
Proof. intros O. apply (carried_order h []); [constructor | exact O]. Qed.
Theorem all_of_them c base s h s' : loose_session c base s [] h s' [] -> loose_sendable h -> loose_in_order h -> none_lost h ->
  carried_out (direct [] h) = sent h.
Proof.
  intros L SE O N. destruct (carried_all _ _ _ _ _ _ _ L [] SE) as (ws' & W & E); auto; [constructor|].
  inversion W; subst. now rewrite app_nil_r in E.
Qed.
