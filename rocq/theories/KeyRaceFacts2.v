(** Proofs about the keys and the streaming thread at once: poses as at an instant, and the model run without interleaving. *)
From Coq Require Import Reals List Bool String Ascii ZArith Lia.
From Verif Require Import Kdl KdlRot KinRep Vocab Keyboard KeyboardSpec KeyboardFacts KeyboardFacts2 KeyboardFacts3 KeyboardFacts4 KeyRace KeyRaceSpec KeyRaceFacts.
Import ListNotations.
Open Scope nat_scope.
Local Notation length := List.length.

(** ** Poses as at an instant *)
Definition is_some {A} (o : option A) : bool := match o with Some _ => true | None => false end.
(** without a swap of frames left, and with a line before the thread is resumed *)
Fixpoint ready (tcp has : bool) (l : list k_micro) : Prop :=
  match l with
  | [] => True
  | UseTcp _ :: _ => False
  | Resume :: l => (tcp = false -> has = true) /\ ready tcp has l
  | StoreLine _ :: l => ready tcp true l
  | _ :: l => ready tcp has l
  end.
Lemma ready_more tcp : forall l, ready tcp false l -> ready tcp true l.
Proof. induction l as [|[ | | | | |] l IH]; cbn; intuition. Qed.
Lemma ready_any tcp b l : ready tcp false l -> ready tcp b l.
Proof. destruct b; [apply ready_more|auto]. Qed.
Lemma ready_app tcp : forall l1 l2 b, ready tcp b l1 -> ready tcp false l2 -> ready tcp b (l1 ++ l2).
Proof. induction l1 as [|[ | | | b1 | |] l1 IH]; cbn; intros l2 b0 H1 H2; try (apply ready_any; exact H2); try (apply IH; assumption); intuition. Qed.
Lemma calls_ready c cs tcp b : ready tcp b (k_calls c cs).
Proof. apply ready_any. unfold k_calls. induction cs as [|x cs IH]; cbn; [exact I|]. destruct x; cbn; try exact IH. destruct (k_thread c); cbn; exact IH. Qed.
Lemma cart_tcp c i o e s cs s' : cartCommand c i o e s = (cs, s') -> k_tcp s' = k_tcp s.
Proof.
  intros H. apply cart_spec in H. destruct H as [? ? ? H|? ? ? ? H|? ? ? ? ? H|? ? ? ? H|? ? ? ? H|? ? ? ? ? H]; cbn; try (apply (st_tcp _ _ _ _ _ H)); exact (started_tcp _ _ _ _ _ _ H).
Qed.
Lemma keys_ready c k e cs s s' b : k <> "m"%char -> pressKey c k e s = Some (cs, s') -> ready (k_tcp s) b (key_steps c k e cs s').
Proof.
  intros N H. unfold key_steps. apply ready_app; [apply calls_ready|]. destruct (k_cart c && k_thread c); [|exact I]. unfold pressKey in H.
  destruct (key_action k) eqn:E; try exact I.
  - injection H as H. apply cart_tcp in H. unfold cart_end. destruct (forallb _ _); [exact I|]. destruct (k_streaming c && negb (e_preset e)); [exact I|].
    rewrite H. destruct (k_tcp s); [cbn; intuition discriminate|]. destruct (e_stat e); cbn; intuition.
  - exfalso. apply N. clear -E. destruct k as [[] [] [] [] [] [] [] []]; cbn in E; congruence.
Qed.
Record sound (c : k_cfg) (tcp : bool) (w : k_world) : Prop := {
  so_tcp : k_tcp (kw_st w) = tcp;
  so_todo : ready tcp (is_some (k_traj (kw_st w))) (kw_todo w);
  so_line : tcp = false -> k_susp (kw_st w) = false -> is_some (k_traj (kw_st w)) = true;
  so_phase : match kw_phase w with Waiting | Sending _ => True | Woken => tcp = false -> is_some (k_traj (kw_st w)) = true
             | InTcp => tcp = true | InBase => tcp = false /\ is_some (k_traj (kw_st w)) = true end }.
Definition turn_keeps (t : k_turn) : Prop := pressed t (fun k => k <> "m"%char).
Lemma sound_step c tcp t w w' : turn_keeps t -> sound c tcp w -> kw_step c t w = Some w' -> sound c tcp w'.
Proof.
  intros O [T D L P] St. destruct t as [k e| |now]; cbn in St.
  - destruct (kw_todo w) eqn:TD; [|injection St as <-; constructor; rewrite ?TD; assumption]. destruct (k_over (kw_st w)); [injection St as <-; constructor; rewrite ?TD; assumption|].
    destruct (pressKey c k e (kw_st w)) as [[cs s']|] eqn:PK; [|discriminate]. injection St as <-. constructor; cbn; auto. rewrite <- T. exact (keys_ready _ _ _ _ _ _ _ O PK).
  - destruct (kw_todo w) as [|m l] eqn:TD; injection St as <-; [constructor; rewrite ?TD; assumption|]. destruct m; cbn in D; constructor; cbn; auto; try contradiction.
    + discriminate.
    + apply D.
    + intros E _. apply D, E.
    + destruct (kw_phase w); auto. intuition.
  - destruct (kw_phase w) eqn:Ph.
    + injection St as <-. constructor; cbn; auto. destruct (k_thread c); cbn; auto. destruct (k_susp (kw_st w)) eqn:S; cbn; auto.
    + injection St as <-. constructor; cbn; auto. destruct (k_tcp (kw_st w)) eqn:E; cbn in *; [congruence|]. split; [congruence|]. apply P. congruence.
    + injection St as <-. constructor; cbn; auto.
    + destruct (k_traj (kw_st w)) eqn:E; [|discriminate]. injection St as <-. constructor; cbn; rewrite ?E; auto.
    + injection St as <-. constructor; cbn; auto.
Qed.
Lemma sound_total c tcp t w : sound c tcp w -> (forall k e s, pressKey c k e s <> None) -> kw_step c t w <> None.
Proof.
  intros [T D L P] PK. destruct t as [k e| |now]; cbn.
  - destruct (kw_todo w); [|discriminate]. destruct (k_over (kw_st w)); [discriminate|]. specialize (PK k e (kw_st w)). destruct (pressKey c k e (kw_st w)) as [[cs s']|]; [discriminate|congruence].
  - destruct (kw_todo w); discriminate.
  - destruct (kw_phase w); try discriminate. destruct (k_traj (kw_st w)); [discriminate|]. destruct P as [_ P]. discriminate.
Qed.
Lemma play_total c tcp : (forall k e s, pressKey c k e s <> None) -> forall ts w, Forall turn_keeps ts -> sound c tcp w -> kw_play c ts w <> None.
Proof.
  intros PK. induction ts as [|t ts IH]; intros w O H; cbn; [discriminate|]. inversion O as [|? ? O1 O2]; subst.
  destruct (kw_step c t w) as [w1|] eqn:St; [|intros _; exact (sound_total _ _ _ _ H PK St)]. exact (IH w1 O2 (sound_step _ _ _ _ _ O1 H St)).
Qed.
Lemma at_once_cons c t w w1 ts x : kw_step c t w = Some w1 -> run_at_once c ts w1 x -> run_at_once c (t :: ts) w x.
Proof. intros St (ts1 & now & ts2 & w2 & -> & P & R). exists (t :: ts1), now, ts2, w2. cbn. rewrite St. auto. Qed.
Lemma sent_at_once c tcp : forall ts w w' x, Forall turn_keeps ts -> sound c tcp w -> kw_play c ts w = Some w' ->
  In (true, x) (kw_sent w') \/ kw_phase w' = Sending x -> In (true, x) (kw_sent w) \/ kw_phase w = Sending x \/ run_at_once c ts w x.
Proof.
  induction ts as [|t ts IH]; intros w w' x O H P I; cbn in P; [injection P as <-; tauto|]. inversion O as [|? ? O1 O2]; subst.
  destruct (kw_step c t w) as [w1|] eqn:St; [|discriminate]. destruct (IH _ _ _ O2 (sound_step _ _ _ _ _ O1 H St) P I) as [I1|[I1|I1]]; [| |right; right; exact (at_once_cons _ _ _ _ _ _ St I1)].
  - destruct t as [k e| |now]; cbn in St.
    + destruct (kw_todo w); [|injection St as <-; auto]. destruct (k_over (kw_st w)); [injection St as <-; auto|]. destruct (pressKey c k e (kw_st w)) as [[cs s']|]; [|discriminate]. injection St as <-. auto.
    + destruct (kw_todo w) as [|m l]; injection St as <-; [auto|]. cbn in I1. apply in_app_or in I1. destruct I1 as [I1|I1]; [auto|]. destruct m; cbn in I1; intuition congruence.
    + destruct (kw_phase w); try (injection St as <-; auto; fail); [destruct (k_traj (kw_st w)); [injection St as <-; auto|discriminate]|].
      injection St as <-. cbn in I1. apply in_app_or in I1. destruct I1 as [I1|[I1|[]]]; [auto|]. injection I1 as ->. auto.
  - destruct t as [k e| |now].
    + cbn in St. destruct (kw_todo w); [|injection St as <-; auto]. destruct (k_over (kw_st w)); [injection St as <-; auto|]. destruct (pressKey c k e (kw_st w)) as [[cs s']|]; [|discriminate]. injection St as <-. auto.
    + cbn in St. destruct (kw_todo w) as [|m l]; injection St as <-; auto.
    + assert (run_at_once c (TThread now :: ts) w x \/ kw_phase w = Sending x) as [R|R]; [|auto|auto].
      pose proof H as [T D L Ph]. cbn in St. destruct (kw_phase w) eqn:E.
      * injection St as <-. cbn in I1. destruct (k_thread c && negb (k_susp (kw_st w))); discriminate.
      * injection St as <-. cbn in I1. destruct (k_tcp (kw_st w)); discriminate.
      * injection St as <-. cbn in I1. injection I1 as <-. left. exists [], now, ts, w. split; [reflexivity|]. split; [reflexivity|]. unfold thread_run. rewrite T, Ph. reflexivity.
      * destruct (k_traj (kw_st w)) as [l|] eqn:TR; [|discriminate]. injection St as <-. cbn in I1. injection I1 as <-. left. exists [], now, ts, w. split; [reflexivity|]. split; [reflexivity|].
        unfold thread_run. rewrite T, TR. destruct Ph as [-> _]. reflexivity.
      * injection St as <-. discriminate.
Qed.
Lemma sound_begin r a cs0 c s : k_configure r a = Some (cs0, c, s) -> sound c (k_tcp s) (kw_begin cs0 s).
Proof.
  intros H. apply configured in H. destruct H as (_ & _ & C & _). constructor; cbn; auto. intros E S. pose proof (co_traj _ _ _ C S E). destruct (k_traj s); [reflexivity|congruence].
Qed.
Lemma keys_total r a cs0 c s : k_configure r a = Some (cs0, c, s) -> (forall b j lo hi, r = Some b -> r_limits b j = Some (lo, hi) -> (lo <= hi)%R) -> forall k e t, pressKey c k e t <> None.
Proof.
  intros HC HL k e t. pose proof (configured _ _ _ _ _ HC) as (B & _). unfold pressKey.
  destruct (key_action k); try discriminate; [destruct (issueStop c (e_act e 0) t); discriminate|]. apply joint_total.
  intros KB J. destruct r as [b|]; [|cbn in B; destruct B; congruence]. destruct B as (_ & _ & _ & _ & _ & LM). destruct (LM _ J) as (vlo & E1 & E2). exact (HL b _ _ _ eq_refl E1).
Qed.

(** ** The theorems *)
Theorem one_pose_left : forall r a cs0 c s ts w ts2 w2 l1 l2, k_configure r (Some a) = Some (cs0, c, s) -> c_pose a = true ->
  kw_play c ts (kw_begin cs0 s) = Some w -> kw_todo w = [] -> no_axis ts2 -> kw_play c ts2 w = Some w2 ->
  kw_sent w2 = kw_sent w ++ l1 ++ (false, KStop) :: l2 -> length (streamed l2) <= 1.
Proof.
  intros r a cs0 c s ts w ts2 w2 l1 l2 HC CP _ TD NA P E. assert (k_thread c = true) as T.
  { apply configured in HC. destruct HC as (_ & HC & _). cbn in HC. decompose [and] HC. congruence. }
  apply (after_stop c T ts2 w w2 l1 l2); auto. rewrite TD. exact I.
Qed.
Theorem poses_at_once : forall r a cs0 c s ts w x, k_configure r a = Some (cs0, c, s) -> no_swap ts -> kw_play c ts (kw_begin cs0 s) = Some w ->
  In x (streamed (kw_sent w)) -> run_at_once c ts (kw_begin cs0 s) x.
Proof.
  intros r a cs0 c s ts w x HC N P I. unfold streamed in I. apply in_map_iff in I. destruct I as ((b & y) & <- & I). apply filter_In in I. destruct I as [I B]. cbn in B. subst b.
  destruct (sent_at_once c (k_tcp s) ts _ w y N (sound_begin _ _ _ _ _ HC) P (or_introl I)) as [J|[J|J]]; [|discriminate|exact J].
  cbn in J. apply in_map_iff in J. destruct J as (z & E & _). discriminate.
Qed.
Theorem defined_together : forall r a cs0 c s ts, k_configure r a = Some (cs0, c, s) -> no_swap ts ->
  (forall b j lo hi, r = Some b -> r_limits b j = Some (lo, hi) -> (lo <= hi)%R) -> kw_play c ts (kw_begin cs0 s) <> None.
Proof. intros r a cs0 c s ts HC N HL. exact (play_total c (k_tcp s) (keys_total _ _ _ _ _ HC HL) ts _ N (sound_begin _ _ _ _ _ HC)). Qed.
