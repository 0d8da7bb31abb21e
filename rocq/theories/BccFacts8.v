From Coq Require Import Reals ZArith List Bool Lra Lia.
From Verif Require Import Kdl Vocab Bcc BccSpec BccFacts BccAll BccFacts2 BccFacts3 BccFacts4 BccFacts5 BccFacts6 BccFacts7.
Import ListNotations.
Open Scope R_scope.
Local Notation S := Datatypes.S.

(** ** At most [k] motion commands on every path, and never leaving the idle state *)
Fixpoint atmost {A} (k : nat) (p : prog A) : Prop :=
  match p with
  | Ret _ | Stuck _ => True
  | Call x f => if motion x then match k with O => False | S k' => forall a, atmost k' (f a) end else forall a, atmost k (f a)
  | Get f => forall s, atmost k (f s)
  | Mod g p => (forall s, currentState s = VOCAB_CC_NOT_CONTROLLING -> currentState (g s) = VOCAB_CC_NOT_CONTROLLING) /\ atmost k p
  end.
Lemma atmost_mono {A} (p : prog A) : forall j k, (j <= k)%nat -> atmost j p -> atmost k p.
Proof.
  induction p as [a|e|x f IH|f IH|g p IH]; cbn; intros j k L; auto.
  - destruct (motion x); [|intros H a; eapply IH; eauto]. destruct j as [|j]; [tauto|]. destruct k as [|k]; [lia|].
    intros H a. apply (IH a j k); [lia|auto].
  - intros H s. eapply IH; eauto.
  - intros (H1 & H2). split; [exact H1|]. eapply IH; eauto.
Qed.
Lemma atmost_bind {A B} (p : prog A) (f : A -> prog B) k : forall j, atmost j p -> (forall a, atmost k (f a)) -> atmost (j + k) (bind p f).
Proof.
  induction p as [a|e|x g IH|g IH|g p IH]; cbn; intros j H F; auto.
  - apply (atmost_mono _ k); [lia|auto].
  - destruct (motion x); [|intros a; apply IH; auto]. destruct j as [|j]; [tauto|]. cbn. intros a. apply IH; auto.
  - destruct H. split; auto.
Qed.
Lemma atmost_bind0 {A B} (p : prog A) (f : A -> prog B) k : atmost 0 p -> (forall a, atmost k (f a)) -> atmost k (bind p f).
Proof. apply (atmost_bind p f k 0). Qed.
Lemma atmost_bind1 {A B} (p : prog A) (f : A -> prog B) k : atmost k p -> (forall a, atmost 0 (f a)) -> atmost k (bind p f).
Proof. intros H F. rewrite <- (Nat.add_0_r k). now apply atmost_bind. Qed.
Lemma all_atmost {A} (p : prog A) k : all (fun x => motion x = false) (fun s s' => currentState s = VOCAB_CC_NOT_CONTROLLING -> currentState s' = VOCAB_CC_NOT_CONTROLLING) p -> atmost k p.
Proof.
  induction p as [a|e|x f IH|f IH|g p IH]; cbn; intros H; auto.
  - destruct H as (-> & H). auto.
  - destruct H. auto.
Qed.
Ltac quiet_all := apply all_atmost; op_all; repeat split; auto.
Ltac am_step :=
  match goal with
  | |- atmost _ (bind (checkControlModes _ _) _) => apply atmost_bind0; [quiet_all|intros]
  | |- atmost _ (bind (sample _ _ _ _ _ _) _) => apply atmost_bind0; [apply all_atmost, all_sample; repeat split; auto|intros]
  | |- atmost _ (bind (ask _) _) => cbn [bind ask atmost motion]; intros
  | |- atmost _ (bind (look _) _) => cbn [bind look atmost]; intros
  | |- atmost _ (bind (need _ ?o) _) => destruct o; cbn [bind need]
  | |- atmost _ (bind (modify _) _) => cbn [bind modify atmost]; split; [auto|]
  | |- atmost _ (bind (stopControl _) _) => apply atmost_bind0; [quiet_all|intros]
  | |- atmost _ (Call _ _) => cbn [atmost motion]; intros
  | |- atmost _ (Get _) => cbn [atmost]; intros
  | |- atmost _ (Mod _ _) => cbn [atmost]; split; [auto|]
  | |- True => exact I
  | |- forall _ : _, _ => intros
  | |- (if motion _ then _ else _) => cbn [motion]; intros
  | |- atmost _ (Ret _) => exact I
  | |- atmost _ (Stuck _) => exact I
  | |- atmost _ (if ?b then _ else _) => destruct b
  | |- atmost _ (bind (match ?x with _ => _ end) _) => destruct x; cbn [bind]
  | |- atmost _ (match ?x with _ => _ end) => destruct x
  end.
Ltac am := repeat am_step.
Lemma atmost_velocity c q cx dx dxd f : atmost 1 (velocity_command c q cx dx dxd f).
Proof. unfold velocity_command. am. Qed.
Lemma atmost_body c v : atmost 1 (cycle_body c v).
Proof.
  unfold cycle_body. apply atmost_bind0.
  { apply all_atmost. unfold read_encoders. pall; reflexivity. }
  intros [[[q qdot] qdotdot]|]; am.
  - unfold handleMovj. am.
  - unfold handleMovlPosd. am.
  - unfold handleMovlVel. am. apply atmost_velocity.
  - unfold handleMovv. am. apply atmost_velocity.
  - unfold handleGcmp. am.
  - unfold handleForc. am.
Qed.
Lemma atmost_run c : atmost 1 (run c).
Proof.
  unfold run. am. apply atmost_bind1; [apply atmost_body|]. intros []; am.
Qed.

(** ** Once the state is idle *)
Definition count (l : list happening) : nat := length (filter motion_happens l).
Lemma count_after l : (count (after_return l) <= count l)%nat.
Proof.
  unfold count. induction l as [|h l IH]; [auto|]. destruct h as [e|e|b]; cbn [after_return filter]; [| |cbn; lia].
  - destruct motion_happens; cbn [length]; lia.
  - destruct motion_happens; cbn [length]; lia.
Qed.
Definition calm (p : prog bool) : Prop :=
  all (fun x => motion x = false) (fun s s' => currentState s = VOCAB_CC_NOT_CONTROLLING -> currentState s' = VOCAB_CC_NOT_CONTROLLING) p.
Lemma idle_together c p q n s l s' : together c p q n s l s' -> currentState s = VOCAB_CC_NOT_CONTROLLING ->
  (match p with Some p => calm p | None => True end) -> forall k, atmost k q \/ q = run c -> (count l <= k)%nat.
Proof.
  unfold count. induction 1 as [p q n s|b q n s l s' T IH|x a k0 q n s l s' T IH|k0 q n s l s' T IH|f k0 q n s l s' T IH|p x a k0 n s l s' T IH|p k0 n s l s' T IH|p f k0 n s l s' T IH|p n s l s' T IH];
    intros Hs Cp k Q.
  - cbn. lia.
  - cbn. apply IH; auto.
  - cbn in Cp. destruct Cp as (Cx & Cp). cbn. rewrite Cx. apply IH; auto. apply Cp.
  - apply IH; auto. apply Cp.
  - destruct Cp as (Cf & Cp). apply IH; auto.
  - cbn [filter motion_happens]. destruct Q as [Q|Q]; [|discriminate]. cbn [atmost] in Q. destruct (motion x).
    + destruct k as [|k]; [contradiction|]. cbn [length]. apply le_n_S. apply IH; auto.
    + apply IH; auto.
  - destruct Q as [Q|Q]; [apply IH; auto; left; apply Q|]. apply IH; auto. left.
    unfold run in Q. cbn [bind look] in Q. injection Q as ->. rewrite Hs. exact I.
  - destruct Q as [(Q1 & Q2)|Q]; [|discriminate]. apply IH; auto.
  - apply IH; auto.
Qed.
Lemma stop_calm c m : calm (let* _ := setControlModes c m in let* _ := ask Stop in modify (set_trajectories []) ;; Ret true).
Proof. unfold calm. pall; auto. op_all; repeat split; auto. Qed.
Lemma stop_then c q n s l s' : together c (Some (stopControl c)) q n s l s' -> atmost 1 q -> (count (after_return l) <= 1)%nat.
Proof.
  intros T. remember (Some (stopControl c)) as p eqn:P. revert P.
  induction T as [p q n s|b q n s l s' T IH|x a k0 q n s l s' T IH|k0 q n s l s' T IH|f k0 q n s l s' T IH|p x a k0 n s l s' T IH|p k0 n s l s' T IH|p f k0 n s l s' T IH|p n s l s' T IH];
    intros P Q; try discriminate.
  - cbn. lia.
  - unfold stopControl in P. cbn [bind modify] in P. injection P as -> ->.
    etransitivity; [apply count_after|]. eapply (idle_together _ _ _ _ _ _ _ T); [reflexivity|apply stop_calm|now left].
  - cbn [after_return]. apply IH; auto. cbn [atmost] in Q. destruct (motion x); [apply (atmost_mono _ 0); auto|auto].
  - apply IH; auto.
  - apply IH; auto. apply Q.
  - apply IH; auto. apply atmost_run.
Qed.
Lemma stop_settles c n s l s' : together c (Some (stopControl c)) (Ret tt) n s l s' -> (count (after_return l) <= 1)%nat.
Proof. intros T. now apply (stop_then _ _ _ _ _ _ T). Qed.
(** a cycle begun after the stop does nothing *)
Lemma idle_thread c n s l s' : together c None (Ret tt) n s l s' -> currentState s = VOCAB_CC_NOT_CONTROLLING -> l = [] /\ s' = s.
Proof.
  intros T. remember (None : option (prog bool)) as p eqn:P. remember (Ret tt) as q eqn:Q.
  assert (X : q = Ret tt \/ q = run c) by (now left). clear Q. revert P X.
  induction T as [p q n s|b q n s l s' T IH|x a k0 q n s l s' T IH|k0 q n s l s' T IH|f k0 q n s l s' T IH|p x a k0 n s l s' T IH|p k0 n s l s' T IH|p f k0 n s l s' T IH|p n s l s' T IH];
    intros P X Hs; try discriminate; auto.
  - destruct X; discriminate.
  - destruct X as [X|X]; [discriminate|]. apply IH; auto. left. unfold run in X. cbn [bind look] in X. injection X as ->. now rewrite Hs.
  - destruct X; discriminate.
Qed.

(** ** Waiting *)

(** a cycle leaves the controlling state only after recording the failure or seeing the end *)
Fixpoint sinc {A} (start : R) (t : list event) (failed : bool) (p : prog A) (Q : list event -> bool -> A -> Prop) : Prop :=
  match p with
  | Ret a => Q t failed a
  | Stuck _ => True
  | Call x k => forall a, sinc start (t ++ [(x, a)]) failed (k a) Q
  | Get k => forall s, movementStartTime s = start -> sinc start t failed (k s) Q
  | Mod g k =>
      (forall s, movementStartTime (g s) = movementStartTime s) /\
      ((forall s, currentState (g s) = currentState s) \/ failed = true \/ completed start t) /\
      (((forall s, cmcSuccess (g s) = cmcSuccess s) /\ sinc start t failed k Q) \/
       ((forall s, cmcSuccess (g s) = false) /\ sinc start t true k Q))
  end.
Lemma sinc_bind {A B} start (p : prog A) (g : A -> prog B) Q : forall t f,
  sinc start t f p (fun t' f' a => sinc start t' f' (g a) Q) -> sinc start t f (bind p g) Q.
Proof.
  induction p as [a|e|x k IH|k IH|h k IH]; cbn; intros t f H; auto.
  destruct H as (H1 & H2 & H). split; [exact H1|]. split; [exact H2|]. destruct H as [(H3 & H4)|(H3 & H4)]; [left|right]; auto.
Qed.
Lemma sinc_mono {A} start (p : prog A) (Q Q' : list event -> bool -> A -> Prop) : (forall t f a, Q t f a -> Q' t f a) -> forall t f, sinc start t f p Q -> sinc start t f p Q'.
Proof.
  intros M. induction p as [a|e|x k IH|k IH|h k IH]; cbn; intros t f H; auto.
  destruct H as (H1 & H2 & H). split; [exact H1|]. split; [exact H2|]. destruct H as [(H3 & H4)|(H3 & H4)]; [left|right]; auto.
Qed.
(** programs that change nothing *)
Lemma sinc_pure {A} start (p : prog A) (Q : list event -> bool -> A -> Prop) : all (fun _ => True) (fun _ _ => False) p -> forall t f, (forall t' a, incl t t' -> Q t' f a) -> sinc start t f p Q.
Proof.
  induction p as [a|e|x k IH|k IH|h k IH]; cbn; intros H t f M; auto.
  - apply M, incl_refl.
  - intros a. apply IH; [apply H|]. intros t' b I1. apply M. intros y Y. apply I1. apply in_app_iff. now left.
  - exfalso. exact (proj1 H (St 0 0 0 0 0 0 0 [] 0 [] [] 0 true)).
Qed.
Lemma completed_incl start t t' : incl t t' -> completed start t -> completed start t'.
Proof. intros H [(a & A & B)|(a0 & x & a & A & B & D)]; [left; exists a; auto|right; exists a0, x, a; auto]. Qed.
Lemma sinc_sample start ts time b w a0 : time = num a0 - start -> forall x xd t f (Q : list event -> bool -> option (list R * list R) -> Prop), In (Now, a0) t ->
  (forall t' r, incl t t' -> (r = None -> completed start t') -> Q t' f r) -> sinc start t f (sample ts time b w x xd) Q.
Proof.
  intros T. induction ts as [|y ts IH]; intros x xd t f Q I0 H; cbn [sample].
  - apply H; [apply incl_refl|discriminate].
  - assert (K : forall t', incl t t' -> sinc start t' f
        (let* p := ask (TrajPos y time) in
      if w then
        let* v := ask (TrajVel y time) in
        sample ts time b w (x ++ vals p) (xd ++ vals v)
      else sample ts time b w (x ++ vals p) xd) Q).
    { intros t' I1. cbn [bind ask sinc]. intros p.
      assert (I2 : incl t (t' ++ [(TrajPos y time, p)])) by (intros z Z; apply in_app_iff; left; auto).
      destruct w; cbn [bind ask sinc].
      - intros v. apply IH; [apply in_app_iff; left; auto|]. intros t2 r I3 N. apply H; [|exact N]. intros z Z. apply I3, in_app_iff. left; auto.
      - apply IH; [auto|]. intros t2 r I3 N. apply H; [|exact N]. intros z Z. apply I3; auto. }
    apply sinc_bind. destruct b; cbn [bind ask sinc].
    + intros d. destruct (Rltb_spec (num d) time) as [L|L].
      * cbn. apply H; [intros z Z; apply in_app_iff; now left|]. intros _. right. exists a0, y, d. rewrite !in_app_iff. cbn.
        repeat split; auto. lra.
      * apply K. intros z Z. apply in_app_iff. now left.
    + apply K, incl_refl.
Qed.
Lemma all_pure_modes c m : all (fun _ => True) (fun _ _ => False) (setControlModes c m).
Proof. op_all; repeat split; auto. Qed.
Lemma all_pure_check c m : all (fun _ => True) (fun _ _ => False) (checkControlModes c m).
Proof. op_all; repeat split; auto. Qed.
Lemma sinc_stop {A} start c t f (k : bool -> prog A) Q : f = true \/ completed start t ->
  (forall b t', incl t t' -> sinc start t' f (k b) Q) -> sinc start t f (bind (stopControl c) k) Q.
Proof.
  intros H K. unfold stopControl. cbn [bind modify sinc]. split; [reflexivity|]. split; [now right|]. left. split; [reflexivity|].
  apply sinc_bind, sinc_bind, sinc_pure; [apply all_pure_modes|]. intros t1 _ I1. cbn [bind ask modify sinc]. intros a.
  split; [reflexivity|]. split; [now left|]. left. split; [reflexivity|]. apply K. intros z Z. apply in_app_iff. left. auto.
Qed.
Lemma sinc_check {A} start c m t f (k : bool -> prog A) Q :
  (forall b t', incl t t' -> sinc start t' f (k b) Q) -> sinc start t f (bind (checkControlModes c m) k) Q.
Proof. intros K. apply sinc_bind, sinc_pure; [apply all_pure_check|]. auto. Qed.
Definition anyway (t : list event) (f : bool) (b : bool) : Prop := True.
Ltac si_step :=
  match goal with
  | |- sinc _ _ _ (bind (checkControlModes _ _) _) _ => apply sinc_check; intros
  | |- sinc _ _ _ (bind (ask _) _) _ => cbn [bind ask sinc]; intros
  | |- sinc _ _ _ (bind (look _) _) _ => cbn [bind look sinc]; intros
  | |- sinc _ _ _ (bind (need _ ?o) _) _ => destruct o; cbn [bind need]
  | |- sinc _ _ _ (bind (Ret _) _) _ => cbn [bind]
  | |- sinc _ _ _ (Call _ _) _ => cbn [sinc]; intros
  | |- sinc _ _ _ (Get _) _ => cbn [sinc]; intros
  | |- True => exact I
  | |- anyway _ _ _ => exact I
  | |- forall _ : _, _ => intros
  | |- sinc _ _ _ (Ret _) _ => exact I
  | |- sinc _ _ _ (Stuck _) _ => exact I
  | |- sinc _ _ _ (if ?b then _ else _) _ => destruct b eqn:?
  | |- sinc _ _ _ (bind (match ?x with _ => _ end) _) _ => destruct x; cbn [bind]
  end.
Ltac si := repeat si_step.
Lemma sinc_velocity start c q cx dx dxd fr t f : sinc start t f (velocity_command c q cx dx dxd fr) anyway.
Proof. unfold velocity_command. si. Qed.
Lemma sinc_body start c v : sinc start [] false (cycle_body c v) anyway.
Proof.
  unfold cycle_body. apply sinc_bind, sinc_pure.
  { unfold read_encoders. pall; auto. }
  assert (ME : forall s k, cmcSuccess (set_encoderErrors k s) = cmcSuccess s) by reflexivity.
  intros t [[[q qdot] qdotdot]|] _; cbn [bind modify sinc]; (split; [reflexivity|]); (split; [left; reflexivity|]); left; (split; [reflexivity|]); si.
  - unfold handleMovj. si. split; [reflexivity|]. split.
    + right. right. left. exists a. rewrite in_app_iff. cbn. repeat split; auto. now apply negb_false_iff.
    + left. split; [reflexivity|]. si.
  - unfold handleMovlPosd. si. apply sinc_bind. eapply (sinc_sample start _ _ _ _ a); [now rewrite H0|apply in_app_iff; right; now left|].
    intros t2 [[dx dxd]|] _ N; si. apply sinc_stop; [right; auto|]. si.
  - unfold handleMovlVel. si. apply sinc_bind. eapply (sinc_sample start _ _ _ _ a); [now rewrite H0|apply in_app_iff; right; now left|].
    intros t2 [[dx dxd]|] _ N; si; [apply sinc_velocity|]. apply sinc_stop; [right; auto|]. si.
  - unfold handleMovv. si. apply sinc_bind. eapply (sinc_sample start _ _ _ _ a); [now rewrite H0|apply in_app_iff; left; apply in_app_iff; right; now left|].
    intros t2 [[dx dxd]|] _ N; si. apply sinc_velocity.
  - unfold handleGcmp. si.
  - unfold handleForc. si.
Qed.
Lemma sinc_run start c : sinc start [] false (run c) (fun _ _ _ => True).
Proof.
  unfold run. cbn [bind look sinc]. intros s _. destruct Z.eqb; [exact I|]. apply sinc_bind.
  apply sinc_mono with (2 := sinc_body start c (currentState s)). intros t f [] _; [exact I|].
  cbn [bind modify sinc]. split; [reflexivity|]. split; [left; reflexivity|]. right. split; [reflexivity|]. apply sinc_stop; [now left|]. intros. exact I.
Qed.

(** the caller's side: having seen the movement over, it returns true only if it read so *)
Fixpoint knows (seen : bool) (p : prog bool) : Prop :=
  match p with
  | Ret b => b = true -> seen = true
  | Stuck _ => True
  | Call x k => forall a, knows seen (k a)
  | Get k => forall s, knows (seen || cmcSuccess s) (k s)
  | Mod _ _ => False
  end.
Fixpoint waits (p : prog bool) : Prop :=
  match p with
  | Ret b => b = false
  | Stuck _ => True
  | Call x k => forall a, waits (k a)
  | Get k => forall s, (currentState s <> VOCAB_CC_NOT_CONTROLLING -> waits (k s)) /\ (currentState s = VOCAB_CC_NOT_CONTROLLING -> knows (cmcSuccess s) (k s))
  | Mod _ _ => False
  end.
Lemma knows_more p : forall b, knows false p -> knows b p.
Proof.
  induction p as [a|e|x k IH|k IH|g p IH]; cbn; intros b H; auto.
  - intros Ha. specialize (H Ha). discriminate.
  - intros s. destruct b; cbn; [|apply H]. specialize (H s). cbn in H. destruct (cmcSuccess s); [exact H|]. now apply IH.
Qed.
Lemma reqb00 : Reqb 0 0 = true. Proof. destruct (Reqb_spec 0 0); congruence. Qed.
Lemma knows_loop c start fuel : forall v b, knows b (wait_loop c fuel 0 start v ;; look cmcSuccess).
Proof.
  induction fuel as [|fuel IH]; intros v b; cbn [wait_loop]; destruct Z.eqb; cbn [bind look knows]; auto.
  1,2: intros s ->; apply orb_true_r.
  rewrite reqb00. cbn [bind look ask knows]. intros s a s2. apply IH.
Qed.
Lemma waits_loop c start fuel : forall v, v <> VOCAB_CC_NOT_CONTROLLING -> waits (wait_loop c fuel 0 start v ;; look cmcSuccess).
Proof.
  induction fuel as [|fuel IH]; intros v N; cbn [wait_loop]; apply Z.eqb_neq in N; rewrite N; cbn [bind look waits]; auto.
  rewrite reqb00. cbn [bind look ask waits]. intros s. split.
  - intros _ a s2. split; [apply IH|]. intros _. apply knows_loop.
  - intros _. cbn [knows]. intros a s2. apply knows_loop.
Qed.
Lemma no_return c q n s l s' b : together c None q n s l s' -> ~ In (Returned b) l.
Proof.
  intros T. remember (None : option (prog bool)) as p eqn:P. revert P.
  induction T; intros P; try discriminate; auto. intros [X|X]; [discriminate|]. now apply IHT.
Qed.
Lemma ret_first c b q n s l s' l1 b' l2 : together c (Some (Ret b)) q n s l s' -> l = l1 ++ Returned b' :: l2 -> forall e, ~ In (Caller e) l1.
Proof.
  intros T. remember (Some (Ret b)) as p eqn:P. revert P l1.
  induction T as [p q n s|b0 q n s l s' T IH|x a k0 q n s l s' T IH|k0 q n s l s' T IH|f k0 q n s l s' T IH|p x a k0 n s l s' T IH|p k0 n s l s' T IH|p f k0 n s l s' T IH|p n s l s' T IH];
    intros P l1 E e; try discriminate; eauto.
  - destruct l1; discriminate.
  - destruct l1 as [|h l1]; [auto|]. injection E as <- E. exfalso. apply (no_return _ _ _ _ _ _ b' T). rewrite E. apply in_app_iff. right. now left.
  - destruct l1 as [|h l1]; [discriminate|]. injection E as <- E. intros [X|X]; [discriminate|]. eapply IH; eauto.
Qed.
Definition over (start : R) (T : list event) (s : st) : Prop := cmcSuccess s = false \/ completed start T.
Definition watching (start : R) (T : list event) (s : st) (p : prog bool) : Prop :=
  waits p \/ exists seen, knows seen p /\ (seen = true -> completed start T) /\ over start T s.
Lemma over_incl start T T' s : incl T T' -> over start T s -> over start T' s.
Proof. intros H [A|A]; [now left|right; eapply completed_incl; eauto]. Qed.
Lemma waiting c start p q n s l s' : together c p q n s l s' -> forall T t f,
  movementStartTime s = start -> sinc start t f q (fun _ _ _ => True) -> incl t T -> (f = true -> cmcSuccess s = false) ->
  (currentState s <> VOCAB_CC_NOT_CONTROLLING \/ over start T s) ->
  (match p with Some p => watching start T s p | None => True end) ->
  forall l1 l2, l = l1 ++ Returned true :: l2 -> completed start (T ++ by_thread l1).
Proof.
  induction 1 as [p q n s|b0 q n s l s' Tg IH|x a k0 q n s l s' Tg IH|k0 q n s l s' Tg IH|f0 k0 q n s l s' Tg IH|p x a k0 n s l s' Tg IH|p k0 n s l s' Tg IH|p f0 k0 n s l s' Tg IH|p n s l s' Tg IH];
    intros T t f Hm Sq It Hf J W l1 l2 E.
  - destruct l1; discriminate.
  - destruct l1 as [|h l1].
    + injection E as -> _. cbn. rewrite app_nil_r. destruct W as [W|(seen & W1 & W2 & _)]; [discriminate|]. auto.
    + injection E as <- E. exfalso. apply (no_return _ _ _ _ _ _ true Tg). rewrite E. apply in_app_iff. right. now left.
  - destruct l1 as [|h l1]; [discriminate|]. injection E as <- E. cbn [by_thread]. eapply IH; eauto.
    destruct W as [W|(seen & W1 & W2)]; [left; apply W|right; exists seen; split; [apply W1|exact W2]].
  - eapply IH; eauto. destruct W as [W|(seen & W1 & W2 & W3)].
    + destruct (Z.eq_dec (currentState s) VOCAB_CC_NOT_CONTROLLING) as [Z|Z].
      * right. exists (cmcSuccess s). destruct J as [J|J]; [contradiction|]. split; [now apply W|]. split; [|exact J].
        intros X. destruct J as [J|J]; [congruence|exact J].
      * left. now apply W.
    + right. exists (seen || cmcSuccess s). split; [apply W1|]. split; [|exact W3]. intros X. apply orb_true_iff in X. destruct X as [X|X]; [auto|].
      destruct W3 as [W3|W3]; [congruence|exact W3].
  - destruct W as [[]|(seen & [] & _)].
  - destruct l1 as [|h l1]; [discriminate|]. injection E as <- E. cbn [by_thread].
    change (T ++ (x, a) :: by_thread l1) with (T ++ [(x, a)] ++ by_thread l1). rewrite app_assoc.
    assert (IT : incl T (T ++ [(x, a)])) by (intros z Z; apply in_app_iff; now left).
    eapply IH with (t := t ++ [(x, a)]); eauto.
    + apply incl_app_app; [exact It|apply incl_refl].
    + destruct J as [J|J]; [now left|right; eapply over_incl; eauto].
    + destruct p as [p|]; [|exact I]. destruct W as [W|(seen & W1 & W2 & W3)]; [now left|]. right. exists seen. split; [exact W1|].
      split; [|eapply over_incl; eauto]. intros X. eapply completed_incl; eauto.
  - eapply IH; eauto; now apply (Sq s).
  - cbn [sinc] in Sq. destruct Sq as (M & Cs & Sq).
    assert (OV : over start T s -> over start T (f0 s)).
    { intros [A|A]; [|now right]. left. destruct Sq as [(B & _)|(B & _)]; [now rewrite B|apply B]. }
    assert (J' : currentState (f0 s) <> VOCAB_CC_NOT_CONTROLLING \/ over start T (f0 s)).
    { destruct Cs as [Cs|[Cs|Cs]].
      - destruct J as [J|J]; [left; now rewrite Cs|right; auto].
      - right. apply OV. left. auto.
      - right. right. eapply completed_incl; eauto. }
    assert (W' : match p with Some p => watching start T (f0 s) p | None => True end).
    { destruct p as [p|]; [|exact I]. destruct W as [W|(seen & W1 & W2 & W3)]; [now left|]. right. exists seen. auto. }
    destruct Sq as [(B & Sq)|(B & Sq)].
    + eapply IH; [..|exact E]; eauto; try (now rewrite M); try (intros X; rewrite B; auto).
    + eapply IH; [..|exact E]; eauto; try (now rewrite M).
  - eapply IH with (t := []) (f := false); eauto; [apply sinc_run|intros z []|discriminate].
Qed.
Lemma wait_sound c fuel q n s l s' l1 l2 t f T : together c (Some (wait c fuel 0)) q n s l s' ->
  forall start, movementStartTime s = start -> sinc start t f q (fun _ _ _ => True) -> incl t T -> (f = true -> cmcSuccess s = false) ->
  (currentState s <> VOCAB_CC_NOT_CONTROLLING \/ over start T s) ->
  l = l1 ++ Returned true :: l2 -> (exists a, In (Caller (Now, a)) l1) -> completed start (T ++ by_thread l1).
Proof.
  intros Tg. remember (Some (wait c fuel 0)) as p eqn:P. revert t f T l1 P.
  induction Tg as [p q n s|b0 q n s l s' Tg IH|x a k0 q n s l s' Tg IH|k0 q n s l s' Tg IH|f0 k0 q n s l s' Tg IH|p x a k0 n s l s' Tg IH|p k0 n s l s' Tg IH|p f0 k0 n s l s' Tg IH|p n s l s' Tg IH];
    intros t f T l1 P start Hm Sq It Hf J E Cn; try discriminate.
  - destruct l1; discriminate.
  - unfold wait in P. cbn [bind look] in P. injection P as ->.
    destruct (negb (Z.eqb (currentState s) VOCAB_CC_MOVJ_CONTROLLING) && negb (Z.eqb (currentState s) VOCAB_CC_MOVL_CONTROLLING)) eqn:B.
    + exfalso. destruct Cn as (a & Cn). eapply (ret_first _ _ _ _ _ _ _ _ _ _ Tg E); exact Cn.
    + eapply (waiting _ start _ _ _ _ _ _ Tg); eauto. left. cbn [bind ask waits]. intros a. apply waits_loop. intros X. rewrite X in B. discriminate.
  - destruct l1 as [|h l1]; [discriminate|]. injection E as <- E. cbn [by_thread].
    change (T ++ (x, a) :: by_thread l1) with (T ++ [(x, a)] ++ by_thread l1). rewrite app_assoc.
    assert (IT : incl T (T ++ [(x, a)])) by (intros z Z; apply in_app_iff; now left).
    apply (IH (t ++ [(x, a)]) f); auto.
    + apply incl_app_app; [exact It|apply incl_refl].
    + destruct J as [J|J]; [now left|right; eapply over_incl; eauto].
    + destruct Cn as (b & [Cn|Cn]); [discriminate|eauto].
  - eapply IH; eauto; now apply (Sq s).
  - cbn [sinc] in Sq. destruct Sq as (M & Cs & Sq).
    assert (OV : over start T s -> over start T (f0 s)).
    { intros [A|A]; [|now right]. left. destruct Sq as [(B & _)|(B & _)]; [now rewrite B|apply B]. }
    assert (J' : currentState (f0 s) <> VOCAB_CC_NOT_CONTROLLING \/ over start T (f0 s)).
    { destruct Cs as [Cs|[Cs|Cs]].
      - destruct J as [J|J]; [left; now rewrite Cs|right; auto].
      - right. apply OV. left. auto.
      - right. right. eapply completed_incl; eauto. }
    destruct Sq as [(B & Sq)|(B & Sq)].
    + eapply IH; [..|exact E|exact Cn]; eauto; try (now rewrite M); try (intros X; rewrite B; auto).
    + eapply IH; [..|exact E|exact Cn]; eauto; try (now rewrite M).
  - eapply IH with (t := []) (f := false); eauto; [apply sinc_run|intros z []|discriminate].
Qed.
Lemma wait_completed c fuel n s l s' l1 l2 : together c (Some (wait c fuel 0)) (Ret tt) n s l s' ->
  currentState s <> VOCAB_CC_NOT_CONTROLLING -> l = l1 ++ Returned true :: l2 -> (exists a, In (Caller (Now, a)) l1) ->
  completed (movementStartTime s) (by_thread l1).
Proof.
  intros Tg N E Cn. apply (wait_sound c fuel (Ret tt) n s l s' l1 l2 [] false [] Tg); auto; try exact I; [intros z []|discriminate].
Qed.
