(** Proofs about the keys and the streaming thread at once. *)
From Coq Require Import Reals List Bool String Ascii ZArith Lia.
From Verif Require Import Kdl KdlRot KinRep Vocab Keyboard KeyboardSpec KeyboardFacts KeyboardFacts2 KeyboardFacts3 KeyboardFacts4 KeyRace KeyRaceSpec.
Import ListNotations.
Open Scope nat_scope.
Local Notation length := List.length.

Lemma play_app c ts1 ts2 w : kw_play c (ts1 ++ ts2) w = match kw_play c ts1 w with Some w1 => kw_play c ts2 w1 | None => None end.
Proof. revert w. induction ts1 as [|t ts1 IH]; intros w; cbn; [reflexivity|]. destruct (kw_step c t w); [apply IH|reflexivity]. Qed.
Lemma streamed_app l1 l2 : streamed (l1 ++ l2) = streamed l1 ++ streamed l2.
Proof. unfold streamed. rewrite filter_app, map_app. reflexivity. Qed.
(** what a turn sends *)
Lemma step_sent c t w w' : kw_step c t w = Some w' -> exists d, kw_sent w' = kw_sent w ++ d /\ (length d <= 1)%nat.
Proof.
  intros H. assert (D0 : w' = w \/ kw_sent w' = kw_sent w -> exists d, kw_sent w' = kw_sent w ++ d /\ (length d <= 1)%nat).
  { intros [->|E]; exists []; rewrite app_nil_r; cbn; auto. }
  destruct t as [k e| |now]; cbn in H.
  - destruct (kw_todo w); [|injection H as <-; auto]. destruct (k_over (kw_st w)); [injection H as <-; auto|].
    destruct (pressKey c k e (kw_st w)) as [[cs s']|]; [|discriminate]. injection H as <-. auto.
  - destruct (kw_todo w) as [|m l]; injection H as <-; [auto|]. exists (micro_calls m). cbn. split; [reflexivity|]. destruct m; cbn; lia.
  - destruct (kw_phase w); try (injection H as <-; auto; fail).
    + destruct (k_traj (kw_st w)); [|discriminate]. injection H as <-. auto.
    + injection H as <-. exists [(true, x)]. cbn. auto.
Qed.
Lemma play_sent c : forall ts w w', kw_play c ts w = Some w' -> exists d, kw_sent w' = kw_sent w ++ d.
Proof.
  induction ts as [|t ts IH]; intros w w' H; cbn in H; [injection H as <-; exists []; symmetry; apply app_nil_r|].
  destruct (kw_step c t w) as [w1|] eqn:E; [|discriminate]. destruct (step_sent _ _ _ _ E) as (d & D & _). destruct (IH _ _ H) as (d' & D').
  exists (d ++ d'). rewrite D', D, app_assoc. reflexivity.
Qed.

(** ** A pose after the stop *)
(** no resume is left to do, and the thread is suspended before every stopControl *)
Fixpoint orderly (susp : bool) (l : list k_micro) : Prop :=
  match l with
  | [] => True
  | Resume :: _ => False
  | Suspend :: l => orderly true l
  | Call KStop :: l => susp = true /\ orderly susp l
  | _ :: l => orderly susp l
  end.
Lemma orderly_weak : forall l, orderly false l -> orderly true l.
Proof. induction l as [|[[] | | | | |] l IH]; cbn; intuition. Qed.
Lemma orderly_any b l : orderly false l -> orderly b l.
Proof. destruct b; [apply orderly_weak|auto]. Qed.
Lemma orderly_app : forall l1 l2 b, orderly b l1 -> orderly false l2 -> orderly b (l1 ++ l2).
Proof. induction l1 as [|[[] | | | | |] l1 IH]; cbn; intros l2 b0 H1 H2; try (apply orderly_any; exact H2); try (apply IH; assumption); intuition. Qed.
Lemma calls_orderly c cs b : k_thread c = true -> orderly b (k_calls c cs).
Proof.
  intros T. apply orderly_any. unfold k_calls. rewrite T. induction cs as [|x cs IH]; cbn; [exact I|]. destruct x; cbn; try exact IH. split; [reflexivity|]. apply orderly_weak, IH.
Qed.
Lemma axis_action k i o : key_action k = ACart i o -> In k (chars "asdfghzxcvbn").
Proof.
  intros H. apply key_cart_rev in H. destruct H as [[[H _]|[H _]] _]; apply nth_error_In in H; cbn in H |- *; tauto.
Qed.
Lemma keys_orderly c k e cs s b : k_thread c = true -> ~ In k (chars "asdfghzxcvbn") -> orderly b (key_steps c k e cs s).
Proof.
  intros T N. unfold key_steps. apply orderly_app; [apply calls_orderly, T|]. destruct (k_cart c && k_thread c); [|exact I].
  destruct (key_action k) eqn:E; try exact I; [exfalso; exact (N (axis_action _ _ _ E))|]. destruct (e_frame e); cbn; exact I.
Qed.
Definition level (w : k_world) : nat := match kw_phase w with Waiting => 0 | _ => 1 end.
Definition turn_ok (t : k_turn) : Prop := pressed t (fun k => ~ In k (chars "asdfghzxcvbn")).
Lemma orderly_step c t w w' : k_thread c = true -> turn_ok t -> orderly (k_susp (kw_st w)) (kw_todo w) -> kw_step c t w = Some w' -> orderly (k_susp (kw_st w')) (kw_todo w').
Proof.
  intros T O H St. destruct t as [k e| |now]; cbn in St.
  - destruct (kw_todo w) eqn:TD; [|injection St as <-; rewrite TD; exact H]. destruct (k_over (kw_st w)); [injection St as <-; rewrite TD; exact H|].
    destruct (pressKey c k e (kw_st w)) as [[cs s']|]; [|discriminate]. injection St as <-. cbn [kw_st kw_todo]. apply keys_orderly; [exact T|exact O].
  - destruct (kw_todo w) as [|m l] eqn:TD; injection St as <-; [rewrite TD; exact H|]. cbn [kw_st kw_todo]. destruct m as [[] | | | | |]; cbn in H |- *; try exact H; [destruct H as [_ H]; exact H|contradiction].
  - destruct (kw_phase w); try (injection St as <-; exact H). destruct (k_traj (kw_st w)); [|discriminate]. injection St as <-. exact H.
Qed.
(** once suspended, at most one pose *)
Lemma calm_step c t w w' : k_thread c = true -> turn_ok t -> orderly (k_susp (kw_st w)) (kw_todo w) -> k_susp (kw_st w) = true -> kw_step c t w = Some w' ->
  k_susp (kw_st w') = true /\ exists d, kw_sent w' = kw_sent w ++ d /\ (length (streamed d) + level w' <= level w)%nat.
Proof.
  intros T O H S St. unfold level. assert (D0 : forall d, kw_sent w ++ [] = kw_sent w ++ d -> d = []) by (intros d E; apply app_inv_head in E; auto).
  destruct t as [k e| |now]; cbn in St.
  - destruct (kw_todo w) eqn:TD; [|injection St as <-; split; [exact S|]; exists []; rewrite app_nil_r; split; [reflexivity|cbn; lia]].
    destruct (k_over (kw_st w)); [injection St as <-; split; [exact S|]; exists []; rewrite app_nil_r; split; [reflexivity|cbn; lia]|].
    destruct (pressKey c k e (kw_st w)) as [[cs s']|]; [|discriminate]. injection St as <-. split; [exact S|]. exists []. cbn [kw_sent kw_phase]. rewrite app_nil_r. split; [reflexivity|cbn; lia].
  - destruct (kw_todo w) as [|m l] eqn:TD; injection St as <-; [split; [exact S|]; exists []; rewrite app_nil_r; split; [reflexivity|cbn; lia]|]. cbn [kw_st kw_sent kw_phase]. split.
    + destruct m; cbn in H |- *; try exact S; [reflexivity|contradiction].
    + exists (micro_calls m). split; [reflexivity|]. destruct m; cbn; lia.
  - destruct (kw_phase w) eqn:P.
    + injection St as <-. rewrite S, T. cbn. split; [exact S|]. exists []. rewrite app_nil_r. split; [reflexivity|cbn; lia].
    + injection St as <-. split; [exact S|]. exists []. cbn [kw_sent kw_phase]. rewrite app_nil_r. split; [reflexivity|]. destruct (k_tcp (kw_st w)); cbn; lia.
    + injection St as <-. split; [exact S|]. exists []. cbn [kw_sent kw_phase]. rewrite app_nil_r. split; [reflexivity|cbn; lia].
    + destruct (k_traj (kw_st w)); [|discriminate]. injection St as <-. split; [exact S|]. exists []. cbn [kw_sent kw_phase]. rewrite app_nil_r. split; [reflexivity|cbn; lia].
    + injection St as <-. split; [exact S|]. exists [(true, x)]. split; [reflexivity|cbn; lia].
Qed.
Lemma calm_play c : k_thread c = true -> forall ts w w', Forall turn_ok ts -> orderly (k_susp (kw_st w)) (kw_todo w) -> k_susp (kw_st w) = true -> kw_play c ts w = Some w' ->
  exists d, kw_sent w' = kw_sent w ++ d /\ (length (streamed d) <= level w)%nat.
Proof.
  intros T. induction ts as [|t ts IH]; intros w w' O H S P; cbn in P; [injection P as <-; exists []; rewrite app_nil_r; split; [reflexivity|cbn; lia]|].
  inversion O as [|? ? O1 O2]; subst. destruct (kw_step c t w) as [w1|] eqn:St; [|discriminate].
  destruct (calm_step _ _ _ _ T O1 H S St) as (S1 & d & D & L). destruct (IH _ _ O2 (orderly_step _ _ _ _ T O1 H St) S1 P) as (d' & D' & L').
  exists (d ++ d'). rewrite D', D, app_assoc, streamed_app, app_length. split; [reflexivity|lia].
Qed.
Lemma after_stop c : k_thread c = true -> forall ts w w' l1 l2, Forall turn_ok ts -> orderly (k_susp (kw_st w)) (kw_todo w) -> kw_play c ts w = Some w' ->
  kw_sent w' = kw_sent w ++ l1 ++ (false, KStop) :: l2 -> (length (streamed l2) <= 1)%nat.
Proof.
  intros T. induction ts as [|t ts IH]; intros w w' l1 l2 O H P E; cbn in P.
  - injection P as <-. rewrite <- app_nil_r in E at 1. apply app_inv_head in E. destruct l1; discriminate.
  - inversion O as [|? ? O1 O2]; subst. destruct (kw_step c t w) as [w1|] eqn:St; [|discriminate].
    destruct (step_sent _ _ _ _ St) as (d & D & Ld). pose proof (orderly_step _ _ _ _ T O1 H St) as H1.
    destruct d as [|y [|]]; [| |cbn in Ld; lia].
    + rewrite app_nil_r in D. rewrite <- D in E. exact (IH _ _ _ _ O2 H1 P E).
    + destruct l1 as [|z l1].
      * destruct (play_sent _ _ _ _ P) as (d' & D'). rewrite D', D, <- app_assoc in E. apply app_inv_head in E. cbn in E. injection E as -> ->.
        assert (k_susp (kw_st w1) = true) as S1.
        { destruct t as [k e| |now]; cbn in St.
          - destruct (kw_todo w); [|injection St as <-]. 2:{ rewrite <- app_nil_r in D at 1. apply app_inv_head in D. discriminate. }
            destruct (k_over (kw_st w)); [injection St as <-; rewrite <- app_nil_r in D at 1; apply app_inv_head in D; discriminate|].
            destruct (pressKey c k e (kw_st w)) as [[cs s']|]; [|discriminate]. injection St as <-. cbn in D. rewrite <- app_nil_r in D at 1. apply app_inv_head in D. discriminate.
          - destruct (kw_todo w) as [|m l] eqn:TD; injection St as <-; [rewrite <- app_nil_r in D at 1; apply app_inv_head in D; discriminate|].
            cbn in D. apply app_inv_head in D. destruct m; cbn in D; try discriminate. injection D as ->. cbn in H |- *. apply H.
          - destruct (kw_phase w).
            1-3: injection St as <-; cbn in D; rewrite <- app_nil_r in D at 1; apply app_inv_head in D; discriminate.
            + destruct (k_traj (kw_st w)); [|discriminate]. injection St as <-. cbn in D; rewrite <- app_nil_r in D at 1; apply app_inv_head in D; discriminate.
            + injection St as <-. cbn in D. apply app_inv_head in D. discriminate. }
        destruct (calm_play c T _ _ _ O2 H1 S1 P) as (d & Dd & L). rewrite D' in Dd. apply app_inv_head in Dd. subst d.
        unfold level in L. destruct (kw_phase w1); lia.
      * apply (IH _ _ l1 l2 O2 H1 P). rewrite D, <- app_assoc. destruct (play_sent _ _ _ _ P) as (d' & D'). rewrite D', D, <- app_assoc in E. apply app_inv_head in E. cbn in E.
        injection E as -> ->. rewrite D', D, <- app_assoc. reflexivity.
Qed.
