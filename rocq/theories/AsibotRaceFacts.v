(** Proofs about the solver of ASIBOT used by several threads. *)
From Coq Require Import Reals List Bool Arith Lia.
From Verif Require Import Kdl KdlRot Trig KinRep Asibot AsibotRace AsibotRaceSpec.
Import ListNotations.
Open Scope nat_scope.
Local Notation length := List.length.

Lemma with_self s : with_tcp s (tcp_of s) = s.
Proof. destruct s; reflexivity. Qed.
Lemma with_tcp_of s t : tcp_of (with_tcp s t) = t.
Proof. destruct t; reflexivity. Qed.
Lemma new_changed s o t : a_changed (with_tcp s t) o = option_map (with_tcp s) (a_new o t).
Proof. destruct o as [x|]; cbn; [|reflexivity]. unfold appendLink. destruct (vectorToMatrix x); reflexivity. Qed.
Lemma after_snoc s o : forall os, a_after s (os ++ [o]) = match a_after s os with Some s' => a_changed s' o | None => None end.
Proof.
  intros os. revert s. induction os as [|p os IH]; intros s; cbn; [destruct (a_changed s o); reflexivity|]. destruct (a_changed s p); [apply IH|reflexivity].
Qed.

Section One.
Context (svd : mat -> vec) (s : asibot) (os : list a_change) (x : a_question).
(** the thread that changes the tool *)
Definition one (w : a_world) : Prop :=
  exists b done left, os = done ++ left /\ a_threads w = [(b, left)] /\ a_after s done = Some (with_tcp s (a_tcp w)) /\ (b = None \/ b = Some (a_tcp w)).
Lemma one_step t w w' : one w -> a_step t w = Some w' -> one w' /\ made os w <= made os w'.
Proof.
  intros (b & done & left & E & Th & Af & B) H. unfold made. rewrite Th. cbn [nth snd]. destruct t as [|i]; cbn in H.
  - injection H as <-. split; [exists b, done, left; repeat split; assumption|]. cbn. rewrite Th. cbn. lia.
  - rewrite Th in H. destruct i as [|i]; cbn [nth] in H.
    2:{ destruct i; injection H as <-; (split; [exists b, done, left; repeat split; assumption|]); rewrite Th; cbn; lia. }
    destruct b as [t|], left as [|o left]; cbn [a_set] in H.
    + injection H as <-. split; [exists (Some t), done, []; repeat split; assumption|]. rewrite Th. cbn. lia.
    + destruct B as [B|B]; [discriminate|]. injection B as ->. destruct (a_new o (a_tcp w)) as [t'|] eqn:N; [|discriminate]. cbn in H. injection H as <-. split.
      * exists None, (done ++ [o]), left. repeat split; [rewrite <- app_assoc; exact E|rewrite after_snoc, Af, new_changed, N; reflexivity|left; reflexivity].
      * cbn. lia.
    + injection H as <-. split; [exists None, done, []; repeat split; assumption|]. rewrite Th. cbn. lia.
    + injection H as <-. split; [|cbn; lia]. exists (Some (a_tcp w)), done, (o :: left). repeat split; [exact E|exact Af|right; reflexivity].
Qed.
Lemma one_begin p : one (a_begin s [os] p).
Proof. exists None, [], os. repeat split; [cbn; rewrite with_self; reflexivity|left; reflexivity]. Qed.
Lemma one_made w : one w -> a_after s (firstn (made os w) os) = Some (with_tcp s (a_tcp w)) /\ made os w <= length os.
Proof.
  intros (b & done & left & E & Th & Af & B). unfold made. rewrite Th. cbn [nth snd]. rewrite E at 1 2. rewrite app_length.
  replace (length done + length left - length left) with (length done) by lia. rewrite firstn_app, firstn_all, Nat.sub_diag. cbn. rewrite app_nil_r. split; [exact Af|].
  rewrite E, app_length. lia.
Qed.
Lemma one_play : forall ts w w', one w -> a_play ts w = Some w' -> one w' /\ made os w <= made os w'.
Proof.
  induction ts as [|t ts IH]; intros w w' O H; cbn in H; [injection H as <-; split; [exact O|lia]|].
  destruct (a_step t w) as [w0|] eqn:S0; [|discriminate]. destruct (one_step _ _ _ O S0) as (O0 & L0). destruct (IH _ _ O0 H) as (O1 & L1). split; [exact O1|lia].
Qed.
(** the query *)
Definition shape (lo : nat) (w : a_world) : Prop :=
  (exists k, a_query w = Get k /\ forall t, k t = Answer (a_alone svd (with_tcp s t) x)) \/
  exists n s', lo <= n <= made os w /\ a_after s (firstn n os) = Some s' /\ a_query w = Answer (a_alone svd s' x).
Lemma shape_step lo t w w' : one w -> lo <= made os w -> shape lo w -> a_step t w = Some w' -> shape lo w'.
Proof.
  intros O L H St. destruct (one_step _ _ _ O St) as (O' & L'). destruct t as [|i]; cbn in St.
  - injection St as <-. destruct H as [(k & E & K)|(n & s' & Ln & A & E)].
    + right. destruct (one_made w O) as (A & _). exists (made os w), (with_tcp s (a_tcp w)). split; [split; [exact L|exact L']|]. split; [exact A|]. cbn. rewrite E. apply K.
    + right. exists n, s'. split; [lia|]. split; [exact A|]. cbn. rewrite E. reflexivity.
  - assert (a_query w' = a_query w) as Q.
    { destruct (nth i (a_threads w) (None, [])) as [[t|] [|o l]]; try (injection St as <-; reflexivity). destruct (a_new o t); [|discriminate]. injection St as <-. reflexivity. }
    destruct H as [(k & E & K)|(n & s' & Ln & A & E)].
    + left. exists k. rewrite Q. split; assumption.
    + right. exists n, s'. rewrite Q. split; [lia|]. split; assumption.
Qed.
Lemma shape_play lo : forall ts w w', one w -> lo <= made os w -> shape lo w -> a_play ts w = Some w' -> shape lo w'.
Proof.
  induction ts as [|t ts IH]; intros w w' O L H P; cbn in P; [injection P as <-; exact H|].
  destruct (a_step t w) as [w0|] eqn:S0; [|discriminate]. destruct (one_step _ _ _ O S0) as (O0 & L0).
  apply (IH w0 w' O0); [lia| |exact P]. apply (shape_step lo t w w0 O L H S0).
Qed.
Lemma a_kept : forall ts w w', Forall a_changing ts -> a_play ts w = Some w' -> a_query w' = a_query w.
Proof.
  induction ts as [|t ts IH]; intros w w' C P; cbn in P; [injection P as <-; reflexivity|]. inversion C as [|? ? C1 C2]; subst.
  destruct (a_step t w) as [w0|] eqn:S0; [|discriminate]. rewrite (IH _ _ C2 P). destruct t as [|i]; [contradiction|]. cbn in S0.
  destruct (nth i (a_threads w) (None, [])) as [[t|] [|o l]]; try (injection S0 as <-; reflexivity). destruct (a_new o t); [|discriminate]. injection S0 as <-. reflexivity.
Qed.
Theorem asibot_instant ts1 ts2 w1 w2 r : Forall a_changing ts1 ->
  a_play ts1 (a_begin s [os] (a_code svd s x)) = Some w1 -> a_play ts2 w1 = Some w2 -> a_query w2 = Answer r ->
  exists n s', made os w1 <= n <= made os w2 /\ a_after s (firstn n os) = Some s' /\ r = a_alone svd s' x.
Proof.
  intros C P1 P2 R. destruct (one_play _ _ _ (one_begin _) P1) as (O1 & _).
  assert (shape (made os w1) w1) as H1.
  { left. rewrite (a_kept _ _ _ C P1). destruct x as [q|xd guess]; eexists; (split; [reflexivity|]); reflexivity. }
  destruct (shape_play (made os w1) ts2 w1 w2 O1 (le_n _) H1 P2) as [(k & E & _)|(n & s' & L & A & E)]; [congruence|].
  exists n, s'. split; [exact L|]. split; [exact A|]. congruence.
Qed.
End One.
