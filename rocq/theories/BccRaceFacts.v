From Coq Require Import Reals ZArith List Bool Lra Lia.
From Verif Require Import Kdl Vocab Bcc BccSpec BccFacts BccAll BccFacts2 BccFacts3 BccFacts4 BccFacts5 BccFacts6 BccFacts7 BccFacts8 BccRaceSpec.
Import ListNotations.
Open Scope R_scope.
Local Notation S := Datatypes.S.

(** ** From rest *)
Definition keeps_rest (s s' : st) : Prop := currentState s = VOCAB_CC_NOT_CONTROLLING -> currentState s' = VOCAB_CC_NOT_CONTROLLING.
(** only the last step may leave the rest *)
Fixpoint restful {A} (p : prog A) : Prop :=
  match p with
  | Ret _ | Stuck _ => True
  | Call _ k => forall a, restful (k a)
  | Get k => forall s, restful (k s)
  | Mod f k => (exists b, k = Ret b) \/ ((forall s, keeps_rest s (f s)) /\ restful k)
  end.
Definition any_call (x : call) : Prop := True.
Lemma restful_bind {A B} (p : prog A) (f : A -> prog B) : all any_call keeps_rest p -> (forall a, restful (f a)) -> restful (bind p f).
Proof. induction p as [a|e|x k IH|k IH|g k IH]; cbn; intros H F; auto; [destruct H; auto|]. destruct H. right. auto. Qed.
Lemma restful_all {A} (p : prog A) : all any_call keeps_rest p -> restful p.
Proof. induction p as [a|e|x k IH|k IH|g k IH]; cbn; intros H; auto; [destruct H; auto|]. destruct H. right. auto. Qed.
Lemma restful_last (v : Z) (b : bool) : restful (modify (setCurrentState v) ;; Ret b).
Proof. cbn. left. eauto. Qed.
Ltac kr := unfold keeps_rest, any_call; repeat split; cbn; auto.
Ltac rf_step :=
  match goal with
  | |- restful (modify (setCurrentState _) ;; Ret _) => apply restful_last
  | |- restful (bind (modify _) _) => apply restful_bind; [cbn; split; [intros ?; unfold keeps_rest; cbn; auto|exact I]|intro]
  | |- restful (bind (ask _) _) => apply restful_bind; [cbn; split; [exact I|intro; exact I]|intro]
  | |- restful (bind (look _) _) => apply restful_bind; [cbn; intro; exact I|intro]
  | |- restful (bind (need _ ?o) _) => apply restful_bind; [destruct o; exact I|intro]
  | |- restful (bind (setControlModes _ _) _) => apply restful_bind; [apply all_modes; kr|intro]
  | |- restful (bind (stat _ _) _) => apply restful_bind; [apply all_stat; kr|intro]
  | |- restful (bind (if ?b then _ else _) _) => destruct b
  | |- restful (bind (Ret _) _) => cbn [bind]
  | |- restful (bind (bind _ _) _) => apply restful_bind; [pall; kr|intro]
  | |- restful (bind (doFailFastChecks _ _ _) _) => apply restful_bind; [apply all_failfast; kr|intro]
  | |- restful (Ret _) => exact I
  | |- restful (if ?b then _ else _) => destruct b
  | |- restful (match ?x with _ => _ end) => destruct x
  end.
Ltac rf := repeat rf_step.
Lemma restful_movj c x : restful (movj c x). Proof. unfold movj. rf. Qed.
Lemma restful_relj c x : restful (relj c x). Proof. unfold relj. rf; apply restful_movj. Qed.
Lemma restful_movl c f x : restful (movl c f x). Proof. unfold movl. rf. Qed.
Lemma restful_movv c x : restful (movv c x). Proof. unfold movv. rf. Qed.
Lemma restful_gcmp c : restful (gcmp c). Proof. unfold gcmp. rf. Qed.
Lemma restful_forc c f : restful (forc c f). Proof. unfold forc. rf. Qed.
Lemma restful_op c o : command o -> restful (do_op c o).
Proof.
  intros N. destruct o; unfold do_op; [..|congruence].
  - apply restful_bind; [apply all_stat; kr|intros; exact I].
  - apply restful_bind; [apply all_inv; kr|intros; exact I].
  - apply restful_movj.
  - apply restful_relj.
  - apply restful_movl.
  - apply restful_movv.
  - apply restful_gcmp.
  - apply restful_forc.
  - apply restful_all, all_stop; kr.
  - apply restful_all, all_wait; kr.
  - apply restful_all, all_tool; kr.
  - unfold act. exact I.
  - apply restful_bind; [apply all_pose; kr|intros; exact I].
  - apply restful_bind; [apply all_twist; kr|intros; exact I].
  - apply restful_bind; [apply all_wrench; kr|intros; exact I].
  - apply restful_all, all_set; kr.
  - apply restful_bind; [unfold getParameter; pall|intros; exact I].
  - apply restful_all, all_sets; kr.
  - apply restful_bind; [unfold getParameters; pall|intros; exact I].
Qed.
(** a program that only has to return *)
Lemma ret_split c b q n s l s' b' : together c (Some (Ret b)) q n s l s' -> In (Returned b') l ->
  b' = b /\ exists l1 l2, l = l1 ++ Returned b :: l2 /\ together c None q n s (l1 ++ l2) s'.
Proof.
  intros T. remember (Some (Ret b)) as p eqn:P. revert P.
  induction T as [p q n s|b0 q n s l s' T IH|x a k0 q n s l s' T IH|k0 q n s l s' T IH|f k0 q n s l s' T IH|p x a k0 n s l s' T IH|p k0 n s l s' T IH|p f k0 n s l s' T IH|p n s l s' T IH];
    intros P I0; try discriminate.
  - destruct I0.
  - injection P as ->. destruct I0 as [E|I0]; [injection E as ->; split; [reflexivity|]; exists [], l; auto|]. exfalso. exact (no_return _ _ _ _ _ _ _ T I0).
  - destruct I0 as [E|I0]; [discriminate|]. destruct (IH P I0) as (-> & l1 & l2 & -> & H). split; [reflexivity|]. exists (Thread (x, a) :: l1), l2. split; [reflexivity|]. cbn. apply p_call, H.
  - destruct (IH P I0) as (-> & l1 & l2 & -> & H). split; [reflexivity|]. exists l1, l2. split; [reflexivity|]. apply p_get, H.
  - destruct (IH P I0) as (-> & l1 & l2 & -> & H). split; [reflexivity|]. exists l1, l2. split; [reflexivity|]. apply p_mod, H.
  - destruct (IH P I0) as (-> & l1 & l2 & -> & H). split; [reflexivity|]. exists l1, l2. split; [reflexivity|]. apply p_next, H.
Qed.
Lemma restful_together c p q n s l s' b : together c (Some p) q n s l s' -> restful p -> currentState s = VOCAB_CC_NOT_CONTROLLING -> q = Ret tt \/ q = run c -> In (Returned b) l ->
  exists tr s1 k l1 l2, exec p s tr (Done b) s1 /\ l = map Caller tr ++ l1 ++ Returned b :: l2 /\ together c None (Ret tt) k s1 (l1 ++ l2) s'.
Proof.
  intros T. remember (Some p) as o eqn:P. revert p P.
  induction T as [p q n s|b0 q n s l s' T IH|x a k0 q n s l s' T IH|k0 q n s l s' T IH|f k0 q n s l s' T IH|p x a k0 n s l s' T IH|p k0 n s l s' T IH|p f k0 n s l s' T IH|p n s l s' T IH];
    intros p0 P RF RS Q I0; try discriminate.
  - destruct I0.
  - injection P as <-. destruct I0 as [E|I0]; [|exfalso; exact (no_return _ _ _ _ _ _ _ T I0)]. injection E as ->.
    destruct Q as [->| ->]; [exists [], s, n, [], l|exists [], s, (S n), [], l]; (split; [cbn; auto|]); (split; [reflexivity|]); cbn; [exact T|apply p_next, T].
  - injection P as <-. cbn in RF. destruct I0 as [E|I0]; [discriminate|]. destruct (IH _ eq_refl (RF a) RS Q I0) as (tr & s1 & k & l1 & l2 & E & -> & H).
    exists ((x, a) :: tr), s1, k, l1, l2. split; [cbn; eauto|]. split; [reflexivity|exact H].
  - injection P as <-. destruct (IH _ eq_refl (RF s) RS Q I0) as (tr & s1 & k & l1 & l2 & E & -> & H). exists tr, s1, k, l1, l2. auto.
  - injection P as <-. destruct RF as [(b1 & ->)|(KR & RF)].
    + destruct (ret_split _ _ _ _ _ _ _ _ T I0) as (-> & l1 & l2 & -> & H).
      destruct Q as [->| ->]; [exists [], (f s), n, l1, l2|exists [], (f s), (S n), l1, l2]; (split; [cbn; auto|]); (split; [reflexivity|]); [exact H|apply p_next, H].
    + destruct (IH _ eq_refl RF (KR s RS) Q I0) as (tr & s1 & k & l1 & l2 & E & -> & H). exists tr, s1, k, l1, l2. auto.
  - destruct Q as [Q|Q]; discriminate.
  - destruct Q as [Q|Q]; [discriminate|]. unfold run in Q. cbn [bind look] in Q. injection Q as ->. apply (IH _ P RF RS); [|exact I0]. left. rewrite RS. reflexivity.
  - destruct Q as [Q|Q]; discriminate.
  - apply (IH _ P RF RS); auto.
Qed.
Theorem from_rest : forall c o n s l s' b, command o -> currentState s = VOCAB_CC_NOT_CONTROLLING -> together c (Some (do_op c o)) (Ret tt) n s l s' -> In (Returned b) l ->
  exists tr s1 k l1 l2, exec (do_op c o) s tr (Done b) s1 /\ l = map Caller tr ++ l1 ++ Returned b :: l2 /\ together c None (Ret tt) k s1 (l1 ++ l2) s'.
Proof. intros c o n s l s' b N RS T I0. exact (restful_together _ _ _ _ _ _ _ _ T (restful_op _ _ N) RS (or_introl eq_refl) I0). Qed.

(** ** Never back to the movement before *)
Definition lets_go (s s' : st) : Prop := currentState s' = currentState s \/ currentState s' = VOCAB_CC_NOT_CONTROLLING.
Ltac lg := unfold lets_go, any_call; repeat split; cbn; auto.
Lemma run_lets_go c : all any_call lets_go (run c).
Proof.
  unfold run, cycle_body, read_encoders. pall; try exact I; try (intros; unfold lets_go; cbn; now auto); try (apply all_stop; lg).
  - unfold handleMovj. pall; try exact I; try (apply all_check; lg). intros; unfold lets_go; cbn; auto.
  - unfold handleMovlPosd. pall; try exact I; first [apply all_check; lg | apply all_sample; lg | apply all_stop; lg].
  - unfold handleMovlVel, velocity_command. pall; try exact I; first [apply all_check; lg | apply all_sample; lg | apply all_stop; lg].
  - unfold handleMovv, velocity_command. pall; try exact I; first [apply all_check; lg | apply all_sample; lg].
  - unfold handleGcmp. pall; try exact I; apply all_check; lg.
  - unfold handleForc. pall; try exact I; apply all_check; lg.
Qed.
Lemma thread_lets_go c p q n s l s' : together c p q n s l s' -> (p = None \/ exists b, p = Some (Ret b)) -> all any_call lets_go q -> lets_go s s'.
Proof.
  assert (TR : forall a b d, lets_go a b -> lets_go b d -> lets_go a d).
  { intros a b d [X|X] [Y|Y]; unfold lets_go; [left; congruence|right; congruence|right; congruence|right; congruence]. }
  induction 1 as [p q n s|b0 q n s l s' T IH|x a k0 q n s l s' T IH|k0 q n s l s' T IH|f k0 q n s l s' T IH|p x a k0 n s l s' T IH|p k0 n s l s' T IH|p f k0 n s l s' T IH|p n s l s' T IH];
    intros P Q.
  - left. reflexivity.
  - apply IH; auto.
  - destruct P as [P|(b & P)]; discriminate.
  - destruct P as [P|(b & P)]; discriminate.
  - destruct P as [P|(b & P)]; discriminate.
  - apply IH; auto. apply Q.
  - apply IH; auto.
  - destruct Q as (Q1 & Q2). eapply TR; [apply Q1|]. apply IH; auto.
  - apply IH; auto. apply run_lets_go.
Qed.
(** true is returned only right after the state is set to [v] *)
Fixpoint sets_last (v : Z) (p : prog bool) : Prop :=
  match p with
  | Ret b => b = false
  | Stuck _ => True
  | Call _ k => forall a, sets_last v (k a)
  | Get k => forall s, sets_last v (k s)
  | Mod f k => (exists b, k = Ret b /\ forall s, currentState (f s) = v) \/ sets_last v k
  end.
Lemma sets_bind {A} v (p : prog A) (f : A -> prog bool) : (forall a, sets_last v (f a)) -> sets_last v (bind p f).
Proof. induction p as [a|e|x k IH|k IH|g k IH]; cbn; intros F; auto. Qed.
Lemma sets_here v : sets_last v (modify (setCurrentState v) ;; Ret true).
Proof. cbn. left. exists true. auto. Qed.
Ltac sl_step :=
  match goal with
  | |- sets_last _ (modify (setCurrentState _) ;; Ret _) => apply sets_here
  | |- sets_last _ (bind _ _) => apply sets_bind; intro
  | |- sets_last _ (Ret false) => reflexivity
  | |- sets_last _ (if ?b then _ else _) => destruct b
  | |- sets_last _ (match ?x with _ => _ end) => destruct x
  end.
Lemma sets_op c o v : movement o = Some v -> sets_last v (do_op c o).
Proof.
  destruct o; try discriminate; intros E; injection E as <-; unfold do_op.
  - unfold movl. repeat sl_step.
  - unfold movv. repeat sl_step.
  - unfold gcmp. repeat sl_step.
  - unfold forc. repeat sl_step.
Qed.
Lemma sets_together c v p q n s l s' : together c (Some p) q n s l s' -> sets_last v p -> all any_call lets_go q -> In (Returned true) l ->
  currentState s' = v \/ currentState s' = VOCAB_CC_NOT_CONTROLLING.
Proof.
  intros T. remember (Some p) as o eqn:P. revert p P.
  induction T as [p q n s|b0 q n s l s' T IH|x a k0 q n s l s' T IH|k0 q n s l s' T IH|f k0 q n s l s' T IH|p x a k0 n s l s' T IH|p k0 n s l s' T IH|p f k0 n s l s' T IH|p n s l s' T IH];
    intros p0 P SL Q I0; try discriminate.
  - destruct I0.
  - injection P as <-. cbn in SL. subst b0. destruct I0 as [E|I0]; [discriminate|]. exfalso; exact (no_return _ _ _ _ _ _ _ T I0).
  - injection P as <-. destruct I0 as [E|I0]; [discriminate|]. exact (IH _ eq_refl (SL a) Q I0).
  - injection P as <-. exact (IH _ eq_refl (SL s) Q I0).
  - injection P as <-. destruct SL as [(b1 & -> & V)|SL]; [|exact (IH _ eq_refl SL Q I0)].
    destruct (thread_lets_go _ _ _ _ _ _ _ T (or_intror (ex_intro _ b1 eq_refl)) Q) as [X|X]; [left; rewrite X; apply V|auto].
  - destruct I0 as [E|I0]; [discriminate|]. exact (IH _ P SL (proj2 Q a) I0).
  - exact (IH _ P SL (Q s) I0).
  - exact (IH _ P SL (proj2 Q) I0).
  - exact (IH _ P SL (run_lets_go c) I0).
Qed.
Theorem never_back : forall c o v n s l s', movement o = Some v -> together c (Some (do_op c o)) (Ret tt) n s l s' -> In (Returned true) l ->
  currentState s' = v \/ currentState s' = VOCAB_CC_NOT_CONTROLLING.
Proof. intros c o v n s l s' M T I0. exact (sets_together _ _ _ _ _ _ _ _ T (sets_op _ _ _ M) I I0). Qed.
