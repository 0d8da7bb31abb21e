(** Facts about a client that reads the state from a stream. *)
From Coq Require Import Reals List Bool ZArith Sorted Lra.
From Verif Require Import Kdl Vocab Rpc RpcSpec RpcFacts Feed FeedSpec.
Import ListNotations.
Open Scope R_scope.
Local Notation S := Datatypes.S.

Section Client.
Variables (state_at : R -> reply) (stream : bool) (timeout : R).
Hypothesis T : tells state_at.

Lemma publish_eq now : publish state_at now =
  match state_at now with Stated x v s => Some (state_message x v s) | _ => None end.
Proof. reflexivity. Qed.
Lemma rpc_eq now : exists b, rpc_stat state_at now = Some b /\ client_stat b = Some (state_at now).
Proof.
  unfold rpc_stat, handleStat. destruct (T now) as [(x & v & s & E & N)|E]; rewrite E; cbn.
  - exists (state_message x v s). split; [reflexivity | now apply message_stat].
  - exists fail. now split.
Qed.

Definition message (m : R * bottle) : Prop :=
  exists x v s, state_at (fst m) = Stated x v s /\ snd m = state_message x v s.
(** what the client has read last is the state of the instant [t0] *)
Definition read_of (w : feed) (t0 : R) : Prop :=
  state_at t0 = Stated (fk_x (f_fk w)) (fk_state (f_fk w)) (fk_time (f_fk w))
  /\ t0 <= arrival (f_fk w) /\ In (arrival (f_fk w) - t0) (f_took w).
Definition told_ok (w : feed) (a : R * option reply) : Prop :=
  exists t0, of_instant state_at a t0 /\ (stream = false -> t0 = fst a)
    /\ (t0 = fst a \/ exists k, In k (f_took w) /\ fst a - t0 <= timeout + k).
Record inv (now : R) (w : feed) : Prop := {
  i_way : Forall (fun m => message m /\ fst m <= now) (f_way w);
  i_fk : f_fk w = fk_new \/ exists t0, read_of w t0;
  i_now : f_fk w = fk_new \/ arrival (f_fk w) <= now;
  i_told : Forall (told_ok w) (f_told w) }.

Lemma remove_incl {A} k : forall (l : list A) x, In x (remove_at k l) -> In x l.
Proof.
  induction k as [|k IH]; intros [|y l] x I; cbn in I; auto.
  - now right.
  - destruct I as [->|I]; [now left | right; now apply IH].
Qed.
Lemma remove_forall {A} (P : A -> Prop) k l : Forall P l -> Forall P (remove_at k l).
Proof.
  rewrite !Forall_forall. intros F x I. apply F. now apply remove_incl in I.
Qed.
Lemma told_more w k a : told_ok w a -> forall f g h, told_ok (Feed f g h (f_took w ++ k)) a.
Proof.
  intros (t0 & A & B & C) f g h. exists t0. split; [exact A|]. split; [exact B|].
  destruct C as [C|(x & I & C)]; [now left|]. right. exists x. cbn. split; [apply in_or_app; now left | exact C].
Qed.

Lemma inv_step now w t e : inv now w -> now <= t -> 0 <= timeout < t ->
  exists w', f_step state_at stream timeout t e w = Some w' /\ inv t w'.
Proof.
  intros [W F N O] L P.
  assert (Forall (fun m => message m /\ fst m <= t) (f_way w)) as W'.
  { eapply Forall_impl; [|exact W]. cbn. intros m (A & B). split; [exact A | lra]. }
  assert (N' : f_fk w = fk_new \/ arrival (f_fk w) <= t) by (destruct N; [now left | right; lra]).
  destruct e as [|k|k|]; cbn [f_step].
  - destruct stream.
    + rewrite publish_eq. destruct (state_at t) as [| |x v s| | |] eqn:E; try (eexists; split; [reflexivity|now split]).
      eexists; split; [reflexivity|]. split; cbn [f_way f_fk f_told f_took]; auto.
      apply Forall_app. split; [exact W'|]. constructor; [|constructor]. cbn. split; [|lra].
      exists x, v, s. now split.
    + eexists; split; [reflexivity|]. now split.
  - destruct (nth_error (f_way w) k) as [[sent b]|] eqn:E.
    + assert (In (sent, b) (f_way w)) as I by (eapply nth_error_In; exact E).
      rewrite Forall_forall in W'. destruct (W' _ I) as ((x & v & s & E1 & E2) & E3). cbn in E1, E2, E3.
      subst b. rewrite message_read. eexists; split; [reflexivity|].
      split; cbn [f_way f_fk f_told f_took].
      * apply remove_forall. now rewrite Forall_forall.
      * right. exists sent. repeat split; cbn; [exact E1 | exact E3 | apply in_or_app; right; now left].
      * right. cbn. lra.
      * eapply Forall_impl; [|exact O]. cbn. intros a A. now apply told_more.
    + eexists; split; [reflexivity|]. now split.
  - eexists; split; [reflexivity|]. split; cbn [f_way f_fk f_told f_took]; auto.
    now apply remove_forall.
  - destruct (rpc_eq t) as (b & -> & B). eexists; split; [reflexivity|].
    split; cbn [f_way f_fk f_told f_took]; auto.
    apply Forall_app. split; [eapply Forall_impl; [|exact O]; intros a (t0 & H); now exists t0|].
    constructor; [|constructor]. unfold told_ok, of_instant. cbn [fst snd f_took].
    unfold stat, fk_last. destruct (stream && Rleb (t - arrival (f_fk w)) timeout)%bool eqn:S1.
    + apply andb_prop in S1. destruct S1 as [S1 S2]. unfold Rleb in S2. destruct (Rle_dec (t - arrival (f_fk w)) timeout) as [D|]; [|discriminate].
      destruct F as [F|(t0 & E1 & E2 & E3)].
      * exfalso. rewrite F in D. cbn in D. lra.
      * destruct N as [N|N]; [exfalso; rewrite N in D; cbn in D; lra|].
        exists t0. split; [split; [lra | now rewrite E1]|]. split; [rewrite S1; discriminate|].
        right. exists (arrival (f_fk w) - t0). split; [exact E3 | lra].
    + exists t. split; [split; [lra | exact B]|]. split; [reflexivity | now left].
Qed.

Lemma inv_start now : inv now f_start.
Proof. split; cbn; auto. Qed.

Lemma inv_play es : forall now w, inv now w -> Forall (fun t => now <= t) (map fst es) -> timeline timeout es ->
  exists w', f_play state_at stream timeout es w = Some w' /\ exists now', inv now' w'.
Proof.
  induction es as [|[t e] es IH]; intros now w I L TL.
  - exists w. split; [reflexivity | now exists now].
  - destruct TL as [TL1 TL2]. cbn in L, TL1, TL2. inversion L; subst. inversion TL1; subst. inversion TL2; subst.
    destruct (inv_step now w t e) as (w1 & E & I1); auto. cbn [f_play]. rewrite E.
    apply (IH t); auto. now split.
Qed.

Lemma play_defined es : timeline timeout es -> exists w, f_play state_at stream timeout es f_start = Some w.
Proof.
  intros TL. destruct (inv_play es 0 f_start (inv_start 0)) as (w & E & _); auto; [|now exists w].
  destruct TL as [_ TL]. eapply Forall_impl; [|exact TL]. cbn. intros; lra.
Qed.

Lemma told_true es w a : timeline timeout es -> f_play state_at stream timeout es f_start = Some w -> In a (f_told w) ->
  exists t0, of_instant state_at a t0 /\ (stream = false -> t0 = fst a)
    /\ forall d, 0 <= d -> Forall (fun x => x <= d) (f_took w) -> fst a - t0 <= timeout + d.
Proof.
  intros TL E I. destruct (inv_play es 0 f_start (inv_start 0)) as (w' & E' & now' & [_ _ _ O]); auto.
  { destruct TL as [_ TL]. eapply Forall_impl; [|exact TL]. cbn. intros; lra. }
  rewrite E in E'. injection E' as <-. rewrite Forall_forall in O. destruct (O a I) as (t0 & A & B & C).
  exists t0. split; [exact A|]. split; [exact B|]. intros d D F.
  destruct C as [->|(k & J & C)].
  - destruct es as [|[t e] es].
    + cbn in E. injection E as <-. destruct I.
    + destruct TL as [_ TL]. inversion TL; subst. lra.
  - rewrite Forall_forall in F. apply F in J. lra.
Qed.
End Client.

(** ** no stream *)
Lemma quiet_never_back state_at timeout es w : tells state_at -> timeline timeout es ->
  f_play state_at false timeout es f_start = Some w -> never_back state_at (f_told w).
Proof.
  intros T TL E.
  enough (forall es now w w', StronglySorted Rle (map fst es) -> Forall (fun t => now <= t) (map fst es) ->
    (exists ts, Forall2 (of_instant state_at) (f_told w) ts /\ StronglySorted Rle ts /\ Forall (fun t => t <= now) ts) ->
    f_play state_at false timeout es w = Some w' -> never_back state_at (f_told w')) as G.
  { destruct TL as [TL1 TL2]. apply (G es 0 f_start); auto.
    - eapply Forall_impl; [|exact TL2]. cbn. intros; lra.
    - exists []. repeat constructor. }
  clear - T. induction es as [|[t e] es IH]; intros now w w' S L (ts & A & B & C) E.
  - cbn in E. injection E as <-. now exists ts.
  - cbn in S, L. inversion S; subst. inversion L; subst. cbn [f_play] in E.
    destruct (f_step state_at false timeout t e w) as [w1|] eqn:E1; [|discriminate].
    apply (IH t w1 w'); auto.
    assert (Forall (fun s => s <= t) ts) as C' by (eapply Forall_impl; [|exact C]; cbn; intros; lra).
    destruct e as [|k|k|]; cbn [f_step] in E1.
    + injection E1 as <-. exists ts. auto.
    + destruct (nth_error (f_way w) k) as [[sent b]|]; [destruct (fk_read t b (f_fk w)); [|discriminate]|]; injection E1 as <-; exists ts; auto.
    + injection E1 as <-. exists ts; auto.
    + destruct (rpc_eq state_at T t) as (b & Eb & Hb). rewrite Eb in E1. injection E1 as <-. cbn [f_told].
      exists (ts ++ [t]). split; [|split].
      * apply Forall2_app; [exact A|]. constructor; [|constructor]. split; cbn; [lra | exact Hb].
      * clear - B C'. induction B as [|a l B IH F]; cbn; [repeat constructor|].
        inversion C'; subst. constructor; [now apply IH|]. apply Forall_app. split; [exact F | constructor; [assumption | constructor]].
      * apply Forall_app. split; [exact C' | constructor; [lra | constructor]].
Qed.

(** ** messages in order, and always one that is recent *)
Section Fed.
Variables (state_at : R -> reply) (timeout : R).
Hypothesis T : tells state_at.
Record inv2 (now : R) (w : feed) : Prop := {
  j_way : Forall (fun m => message state_at m /\ fst m <= now) (f_way w);
  j_sorted : StronglySorted Rle (map fst (f_way w));
  j_read : exists ts, Forall2 (of_instant state_at) (f_told w) ts /\ StronglySorted Rle ts
    /\ ((f_fk w = fk_new /\ ts = []) \/
        exists t0, state_at t0 = Stated (fk_x (f_fk w)) (fk_state (f_fk w)) (fk_time (f_fk w)) /\ t0 <= now
          /\ Forall (fun t => t <= t0) ts /\ Forall (fun m => t0 <= fst m) (f_way w)) }.

Lemma sorted_snoc l x : StronglySorted Rle l -> Forall (fun t => t <= x) l -> StronglySorted Rle (l ++ [x]).
Proof.
  intros B C. induction B as [|a l B IH F]; cbn; [repeat constructor|].
  inversion C; subst. constructor; [now apply IH|]. apply Forall_app. split; [exact F | constructor; [assumption | constructor]].
Qed.
Lemma remove_sorted {A} (f : A -> R) k : forall l, StronglySorted Rle (map f l) -> StronglySorted Rle (map f (remove_at k l)).
Proof.
  induction k as [|k IH]; intros [|y l] S; cbn; auto; cbn in S; inversion S; subst; auto.
  constructor; [now apply IH|]. apply Forall_map. apply remove_forall. now apply Forall_map.
Qed.

Lemma inv2_step now w t e w' : inv2 now w -> now <= t -> 0 <= timeout < t ->
  (forall k, e = Arrive k -> k = O) -> (e = AskStat -> t - arrival (f_fk w) <= timeout) ->
  f_step state_at true timeout t e w = Some w' -> inv2 t w'.
Proof.
  intros [W S (ts & A & B & C)] L P IO AF E.
  assert (Forall (fun m => message state_at m /\ fst m <= t) (f_way w)) as W'.
  { eapply Forall_impl; [|exact W]. cbn. intros m (X & Y). split; [exact X | lra]. }
  assert (C' : (f_fk w = fk_new /\ ts = []) \/
        exists t0, state_at t0 = Stated (fk_x (f_fk w)) (fk_state (f_fk w)) (fk_time (f_fk w)) /\ t0 <= t
          /\ Forall (fun t => t <= t0) ts /\ Forall (fun m => t0 <= fst m) (f_way w)).
  { destruct C as [C|(t0 & C1 & C2 & C3)]; [now left|]. right. exists t0. split; [exact C1|]. split; [lra | exact C3]. }
  destruct e as [|k|k|]; cbn [f_step] in E.
  - rewrite publish_eq in E. destruct (state_at t) as [| |x v s| | |] eqn:Es; injection E as <-.
    all: try (split; [exact W' | exact S | now exists ts]).
    split; cbn [f_way f_fk f_told].
    + apply Forall_app. split; [exact W'|]. constructor; [|constructor]. cbn. split; [|lra]. exists x, v, s. now split.
    + rewrite map_app. apply sorted_snoc; [exact S|]. apply Forall_map. eapply Forall_impl; [|exact W']. cbn. now intros m (_ & Y).
    + exists ts. split; [exact A|]. split; [exact B|]. destruct C' as [C'|(t0 & C1 & C2 & C3 & C4)]; [now left|].
      right. exists t0. repeat split; auto. apply Forall_app. split; [exact C4 | constructor; [assumption | constructor]].
  - rewrite (IO k eq_refl) in E. destruct (f_way w) as [|[sent b] way] eqn:Ew; cbn [nth_error] in E.
    + injection E as <-. split; rewrite ?Ew; auto. now exists ts.
    + inversion W' as [|? ? ((x & v & s & E1 & E2) & E3) W2]; subst. cbn in E1, E2, E3. subst b.
      rewrite message_read in E. injection E as <-. cbn in S. inversion S as [|? ? S1 S2]; subst.
      split; cbn [f_way f_fk f_told remove_at]; auto.
      exists ts. split; [exact A|]. split; [exact B|]. right. exists sent. cbn. repeat split; auto.
      * destruct C' as [(_ & ->)|(t0 & C1 & C2 & C3 & C4)]; [constructor|].
        inversion C4; subst. cbn in *. eapply Forall_impl; [|exact C3]. cbn. intros; lra.
      * rewrite Forall_map in S2; exact S2.
  - injection E as <-. split; cbn [f_way f_fk f_told].
    + now apply remove_forall.
    + now apply remove_sorted.
    + exists ts. split; [exact A|]. split; [exact B|]. destruct C' as [C'|(t0 & C1 & C2 & C3 & C4)]; [now left|].
      right. exists t0. repeat split; auto. now apply remove_forall.
  - destruct (rpc_eq state_at T t) as (b & Eb & Hb). rewrite Eb in E. injection E as <-.
    assert (D := AF eq_refl).
    destruct C' as [(C1 & C2)|(t0 & C1 & C2 & C3 & C4)].
    { exfalso. rewrite C1 in D. cbn in D. lra. }
    split; cbn [f_way f_fk f_told]; auto.
    exists (ts ++ [t0]). split; [|split].
    + apply Forall2_app; [exact A|]. constructor; [|constructor]. split; cbn [fst snd]; [exact C2|].
      unfold stat, fk_last. unfold Rleb. destruct (Rle_dec (t - arrival (f_fk w)) timeout); [|contradiction].
      cbn. now rewrite C1.
    + now apply sorted_snoc.
    + right. exists t0. repeat split; auto. apply Forall_app. split; [exact C3 | constructor; [lra | constructor]].
Qed.

Lemma fed_play es2 : forall es1 now w w', inv2 now w -> f_play state_at true timeout es1 f_start = Some w ->
  Forall (fun t => now <= t) (map fst es2) -> timeline timeout es2 -> in_order es2 ->
  always_fed state_at timeout (es1 ++ es2) ->
  f_play state_at true timeout es2 w = Some w' -> exists now', inv2 now' w'.
Proof.
  induction es2 as [|[t e] es2 IH]; intros es1 now w w' I E1 L TL IO AF E.
  - cbn in E. injection E as <-. now exists now.
  - destruct TL as [TL1 TL2]. cbn in L, TL1, TL2. inversion L; subst. inversion TL1; subst. inversion TL2; subst.
    cbn [f_play] in E. destruct (f_step state_at true timeout t e w) as [w1|] eqn:Es; [|discriminate].
    assert (f_play state_at true timeout (es1 ++ [(t, e)]) f_start = Some w1) as E2.
    { clear - E1 Es. revert E1. generalize f_start. induction es1 as [|[a b] es1 IH]; intros w0 E1.
      - cbn in E1. injection E1 as ->. cbn [app f_play]. now rewrite Es.
      - cbn [app f_play] in E1 |- *. destruct (f_step state_at true timeout a b w0); [now apply IH | discriminate]. }
    apply (IH (es1 ++ [(t, e)]) t w1 w'); auto.
    + apply (inv2_step now w t e w1); auto.
      * intros k ->. apply (IO t k). now left.
      * intros ->. apply (AF es1 t es2 w); auto.
    + now split.
    + intros a k Ik. apply (IO a k). now right.
    + now rewrite <- app_assoc.
Qed.

Lemma fed_never_back es w : timeline timeout es -> in_order es -> always_fed state_at timeout es ->
  f_play state_at true timeout es f_start = Some w -> never_back state_at (f_told w).
Proof.
  intros TL IO AF E. destruct (fed_play es [] 0 f_start w) as (now' & [_ _ (ts & A & B & _)]); auto.
  - split; cbn; try constructor. exists []. split; [constructor|]. split; [constructor | now left].
  - destruct TL as [_ TL]. eapply Forall_impl; [|exact TL]. cbn. intros; lra.
  - now exists ts.
Qed.
End Fed.

(** ** refutations *)
Definition clock (t : R) : reply := Stated [t] VOCAB_CC_NOT_CONTROLLING t.
Lemma clock_tells : tells clock.
Proof. intros t. left. exists [t], VOCAB_CC_NOT_CONTROLLING, t. now split. Qed.
Lemma clock_inj a b : clock a = clock b -> a = b.
Proof. unfold clock. congruence. Qed.
Lemma clock_publish t : publish clock t = Some (state_message [t] VOCAB_CC_NOT_CONTROLLING t).
Proof. reflexivity. Qed.

Lemma clock_ask stream timeout t w : f_step clock stream timeout t AskStat w =
  Some (Feed (f_way w) (f_fk w)
    (f_told w ++ [(t, if (stream && Rleb (t - arrival (f_fk w)) timeout)%bool
       then Some (Stated (fk_x (f_fk w)) (fk_state (f_fk w)) (fk_time (f_fk w))) else Some (clock t))]) (f_took w)).
Proof.
  cbn [f_step]. destruct (rpc_eq clock clock_tells t) as (b & -> & B). unfold stat, fk_last.
  destruct (stream && Rleb (t - arrival (f_fk w)) timeout)%bool; [reflexivity | now rewrite B].
Qed.
Lemma Rleb_yes a b : a <= b -> Rleb a b = true.
Proof. unfold Rleb. destruct (Rle_dec a b); tauto. Qed.
Lemma Rleb_no a b : b < a -> Rleb a b = false.
Proof. unfold Rleb. destruct (Rle_dec a b); [lra | auto]. Qed.

Lemma clock_pub timeout t w : f_step clock true timeout t Publish w =
  Some (Feed (f_way w ++ [(t, state_message [t] VOCAB_CC_NOT_CONTROLLING t)]) (f_fk w) (f_told w) (f_took w)).
Proof. reflexivity. Qed.
Lemma clock_arrive timeout t k w a : nth_error (f_way w) k = Some (a, state_message [a] VOCAB_CC_NOT_CONTROLLING a) ->
  f_step clock true timeout t (Arrive k) w =
  Some (Feed (remove_at k (f_way w)) (Fk t VOCAB_CC_NOT_CONTROLLING a [a]) (f_told w) (f_took w ++ [t - a])).
Proof. intros E. cbn [f_step]. rewrite E, message_read. reflexivity. Qed.
Lemma play_cons state_at stream timeout t e es w : f_play state_at stream timeout ((t, e) :: es) w =
  match f_step state_at stream timeout t e w with Some w' => f_play state_at stream timeout es w' | None => None end.
Proof. reflexivity. Qed.

Ltac events := repeat first [rewrite clock_ask | rewrite clock_pub | erewrite clock_arrive by reflexivity
  | rewrite play_cons | progress cbn [f_start f_way f_fk f_told f_took app remove_at andb arrival fk_new fk_x fk_state fk_time]].

(** a message that is overtaken *)
Definition swapped : list (R * f_event) := [(1, Publish); (2, Publish); (3, Arrive 1); (3, AskStat); (4, Arrive 0); (4, AskStat)].
Lemma swapped_play : exists w, f_play clock true (1/2) swapped f_start = Some w /\
  f_told w = [(3, Some (clock 2)); (4, Some (clock 1))].
Proof.
  unfold swapped. eexists. split.
  - events. rewrite !Rleb_yes by (cbn; lra). events. reflexivity.
  - reflexivity.
Qed.
(** an answer by RPC, before a message that was sent earlier *)
Definition late : list (R * f_event) := [(1, Publish); (2, AskStat); (3, Arrive 0); (3, AskStat)].
Lemma late_play : exists w, f_play clock true (1/2) late f_start = Some w /\
  f_told w = [(2, Some (clock 2)); (3, Some (clock 1))].
Proof.
  unfold late. eexists. split.
  - events. rewrite Rleb_no by (cbn; lra). rewrite Rleb_yes by (cbn; lra). events. reflexivity.
  - reflexivity.
Qed.
Ltac a_timeline := split; cbn; repeat (constructor; try lra).
Lemma went_back a b s t : b < a -> ~ never_back clock [(s, Some (clock a)); (t, Some (clock b))].
Proof.
  intros L (ts & F & S). inversion F as [|? u ? ts' (_ & E1) F']; subst. inversion F' as [|? v ? ts'' (_ & E2) F'']; subst.
  inversion F''; subst. cbn in E1, E2. injection E1 as E1. injection E2 as E2. subst.
  inversion S as [|? ? _ X]; subst. inversion X; subst. lra.
Qed.

Lemma order_refuted : exists state_at timeout es w, tells state_at /\ timeline timeout es /\ always_fed state_at timeout es
  /\ f_play state_at true timeout es f_start = Some w /\ ~ never_back state_at (f_told w).
Proof.
  destruct swapped_play as (w & E & O). exists clock, (1/2), swapped, w. split; [apply clock_tells|].
  split; [a_timeline|]. split; [|split; [exact E|]].
  - intros es1 t es2 w1 E1 E2. unfold swapped in E1.
    do 6 (destruct es1 as [|? es1]; cbn in E1; [try discriminate; injection E1 as <- <-;
      revert E2; events; rewrite ?Rleb_yes by (cbn; lra); intros E2; injection E2 as <-; cbn; lra | injection E1 as <- E1]).
    destruct es1; discriminate.
  - rewrite O. apply went_back. lra.
Qed.
Lemma late_refuted : exists state_at timeout es w, tells state_at /\ timeline timeout es /\ in_order es
  /\ f_play state_at true timeout es f_start = Some w /\ ~ never_back state_at (f_told w).
Proof.
  destruct late_play as (w & E & O). exists clock, (1/2), late, w. split; [apply clock_tells|].
  split; [a_timeline|]. split; [|split; [exact E|]].
  - intros t k I. cbn in I. repeat destruct I as [I|I]; try discriminate; try (now injection I as _ <-); destruct I.
  - rewrite O. apply went_back. lra.
Qed.
Lemma old_refuted : forall d, 0 < d -> exists state_at timeout es w t t0, tells state_at /\ timeline timeout es
  /\ f_play state_at true timeout es f_start = Some w /\ In (t, Some (state_at t0)) (f_told w)
  /\ d < t - t0 /\ forall t', state_at t' = state_at t0 -> t' = t0.
Proof.
  intros d D. exists clock, (1/2), [(1, Publish); (2 + d, Arrive 0); (2 + d, AskStat)].
  eexists. exists (2 + d), 1. split; [apply clock_tells|]. split; [a_timeline|]. split; [|split; [|split]].
  - events. rewrite Rleb_yes by (cbn; lra). events. reflexivity.
  - cbn. now left.
  - lra.
  - intros t'. apply clock_inj.
Qed.

Lemma told_true_all state_at stream timeout es : tells state_at -> timeline timeout es ->
  exists w, f_play state_at stream timeout es f_start = Some w /\
  forall a, In a (f_told w) -> exists t0, of_instant state_at a t0 /\ (stream = false -> t0 = fst a)
    /\ forall d, 0 <= d -> Forall (fun x => x <= d) (f_took w) -> fst a - t0 <= timeout + d.
Proof.
  intros T TL. destruct (play_defined state_at stream timeout T es TL) as (w & E). exists w. split; [exact E|].
  intros a I. now apply (told_true state_at stream timeout T es w).
Qed.
