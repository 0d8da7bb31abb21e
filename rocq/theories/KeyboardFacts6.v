(** Proofs about keyboardController: Cartesian velocities and the poses that are streamed. *)
From Coq Require Import Reals List Bool String Ascii ZArith Lra Lia.
From Verif Require Import Kdl KdlFacts KdlRot KdlRotFacts KinRep Vocab Trig TrigFacts Keyboard KeyboardSpec KeyboardFacts KeyboardFacts2 KeyboardFacts3 KeyboardFacts4 KeyboardFacts5.
Import ListNotations.
Open Scope R_scope.
Local Notation S := Datatypes.S.
Local Notation length := List.length.
Local Notation concat := List.concat.

Definition zero_n (n : nat -> Z) : Prop := forall i, (i < 6)%nat -> n i = 0%Z.
Lemma velocity_zero : forall n, zero_n n -> velocity n = repeat 0 6.
Proof. intros n Z. unfold velocity. rewrite !Z by lia. rewrite !Rmult_0_l. reflexivity. Qed.
Lemma velocity_next : forall n i o, (i < 6)%nat ->
  put i (nth i (velocity n) 0 + sgn o * k_step_of i) (velocity n) = velocity (bump i (sgz o) n).
Proof.
  intros n i o L. unfold velocity, bump, k_step_of.
  do 6 (destruct i as [|i]; [cbn [put nth Nat.eqb Nat.ltb Nat.leb]; rewrite plus_IZR, sgz_sgn; repeat (f_equal; try ring)|]). lia.
Qed.
Lemma small_int : forall z k, 1 / 1000000 <= k -> Rltb (Rabs (IZR z * k)) (1 / 1000000) = true -> z = 0%Z.
Proof.
  intros z k K H. apply Rltb_true in H. destruct (Z.eq_dec z 0) as [|N]; auto. exfalso.
  rewrite Rabs_mult, (Rabs_pos_eq k) in H by lra. rewrite <- abs_IZR in H.
  assert (1 <= IZR (Z.abs z)) by (apply IZR_le; lia). nra.
Qed.
Lemma tiny_velocity : forall n, tiny_all (velocity n) = true <-> zero_n n.
Proof.
  intros n. split.
  - intros H. unfold tiny_all, roundZeroes, velocity in H. cbn [map forallb] in H.
    repeat (apply andb_true_iff in H; destruct H as [?H H]).
    assert (forall z k, 1 / 1000000 <= k -> Reqb (if Rltb (Rabs (IZR z * k)) (1 / 1000000) then 0 else IZR z * k) 0 = true -> z = 0%Z) as K.
    { intros z k HK E. destruct (Rltb (Rabs (IZR z * k)) (1 / 1000000)) eqn:F; [eapply small_int; eauto|]. apply Reqb_true in E. rewrite E, Rabs_R0 in F. apply Rltb_false in F. lra. }
    intros i L. do 6 (destruct i as [|i]; [eapply K; [|eassumption]; lra|]). lia.
  - intros Z. rewrite (velocity_zero n Z). unfold tiny_all, roundZeroes. cbn [map forallb repeat].
    assert (forall b : bool, Reqb (if b then 0 else 0) 0 = true) as E by (intros []; apply Reqb_true; reflexivity). rewrite !E. reflexivity.
Qed.

Lemma presses_snoc : forall b evs ev n, presses b (evs ++ [ev]) n ->
  exists n1, presses b evs n1 /\
  match ev with
  | ETick _ => n = n1
  | EKey k _ =>
      (exists i sg, cart_key k i sg /\ n = bump i sg n1) \/
      ((In k (chars "?pkl") \/ (k = "j"%char /\ b = true)) /\ n = n1) \/
      (~ In k (chars "asdfghzxcvbn") /\ ~ In k (chars "?pkl") /\ ~ (k = "j"%char /\ b = true) /\ n = fun _ => 0%Z)
  end.
Proof.
  intros b evs ev n H. inversion H as [E|evs' k e i sg n1 P K E EN|evs' k e n1 P K E EN|evs' k e n1 P K1 K2 K3 E EN|evs' t n1 P E EN].
  - destruct evs; discriminate E.
  - apply snoc_inj in E. destruct E as [-> <-]. exists n1. split; auto. left. exists i, sg. auto.
  - apply snoc_inj in E. destruct E as [-> <-]. subst. exists n. split; auto.
  - apply snoc_inj in E. destruct E as [-> <-]. exists n1. split; auto. right; right. auto.
  - apply snoc_inj in E. destruct E as [-> <-]. subst. exists n. auto.
Qed.

Lemma cart_in : forall k i sg, cart_key k i sg -> In k (chars "asdfghzxcvbn").
Proof. intros k i sg [[E _]|[E _]]; apply nth_error_In in E; cbn in *; tauto. Qed.

Record spd (c : k_cfg) (n : nat -> Z) (s : k_st) : Prop := {
  sp_cv : k_cv s = velocity n;
  sp_ctl : k_ctl s <> CartMode -> zero_n n;
  sp_go : k_thread c = true -> k_ctl s = CartMode -> (zero_n n <-> k_susp s = true) }.

Lemma spd_stopped : forall c s cs s2 ok, k_cart c = true -> length (k_cv s) = 6%nat -> stopped c s cs s2 ok -> spd c (fun _ => 0%Z) s2.
Proof.
  intros c s cs s2 ok KC L P. constructor.
  - rewrite (st_cv _ _ _ _ _ P), KC, L. symmetry. apply velocity_zero. intros i _. reflexivity.
  - intros _ i _. reflexivity.
  - intros _ E. rewrite (st_ctl _ _ _ _ _ P) in E. discriminate E.
Qed.
Lemma spd_started : forall c n e s pre s1, k_cart c = true -> length (k_cv s) = 6%nat -> spd c n s -> started c e CartMode s pre s1 -> k_cv s1 = velocity n /\ k_tcp s1 = k_tcp s.
Proof.
  intros c n e s pre s1 KC L SP [(_ & _ & ->)|[N P]].
  - split; auto. apply (sp_cv _ _ _ SP).
  - split; [|apply (st_tcp _ _ _ _ _ P)]. rewrite (st_cv _ _ _ _ _ P), KC, L. symmetry. apply velocity_zero, (sp_ctl _ _ _ SP N).
Qed.

Lemma zero_ext : forall m n, (forall i, (i < 6)%nat -> m i = n i) -> velocity m = velocity n.
Proof. intros m n H. unfold velocity. rewrite !H by lia. reflexivity. Qed.

Lemma spd_key : forall c n k e cs s c2 s2, core c cs s -> k_cart c = true -> (k_thread c = true -> e_preset e = true /\ e_stat e <> None) ->
  spd c n s -> pressKey c k e s = Some (c2, s2) ->
  (forall i sg, cart_key k i sg -> spd c (bump i sg n) s2) /\
  ((In k (chars "?pkl") \/ (k = "j"%char /\ k_board c = true)) -> spd c n s2) /\
  (~ In k (chars "asdfghzxcvbn") -> ~ In k (chars "?pkl") -> ~ (k = "j"%char /\ k_board c = true) -> spd c (fun _ => 0%Z) s2).
Proof.
  intros c n k e cs s c2 s2 C KC AN SP H.
  assert (length (k_cv s) = 6%nat) as L by (rewrite (co_cv _ _ _ C), KC; reflexivity).
  split; [|split].
  - intros i sg CK. destruct (key_cart _ _ _ CK) as (o & EK & -> & LI). unfold pressKey in H. rewrite EK in H. apply k_some in H. apply cart_spec in H.
    destruct H as [c2 s2 F P|pre s1 EC ET ST Z|pre s1 v EC ET ST EV|pre s1 EC ET ST Z F|pre s1 EC ET ST Z T|pre s1 x0 EC ET ST Z T X]; [congruence| | | | |];
      destruct (spd_started _ _ _ _ _ _ KC L SP ST) as [E1 T1];
      (assert (next_cv i o s1 = velocity (bump i (sgz o) n)) as EN by (unfold next_cv; rewrite E1; apply velocity_next; exact LI)).
    + rewrite EN in Z. apply tiny_velocity in Z. constructor; cbn; try congruence; [symmetry; apply velocity_zero; exact Z|].
      intros _ _. tauto.
    + constructor; cbn; try congruence. rewrite EV, EN. destruct (tiny_all (velocity _)) eqn:E; auto. apply tiny_velocity in E. symmetry. apply velocity_zero. exact E.
    + exfalso. destruct (AN ET) as [A1 A2]. destruct F as [[_ F]|[_ F]]; congruence.
    + rewrite EN in *. constructor; cbn; try congruence. intros _ _. split; [|discriminate]. intros ZN. apply tiny_velocity in ZN. congruence.
    + rewrite EN in *. constructor; cbn; try congruence. intros _ _. split; [|discriminate]. intros ZN. apply tiny_velocity in ZN. congruence.
  - intros KK. assert (s2 = s \/ exists a, s2 = set_act a s) as ES.
    { unfold pressKey in H. destruct KK as [KK|[-> EB]].
      - cbn in KK. destruct KK as [<-|[<-|[<-|[<-|[]]]]]; cbn in H; apply k_some in H; unfold printCart, actuateTool in H; rewrite ?KC in H; cbn in H.
        + apply k_pair in H. destruct H as [_ <-]. auto.
        + apply k_pair in H. destruct H as [_ <-]. auto.
        + apply k_pair in H. destruct H as [_ <-]. destruct (e_act e 0); eauto.
        + apply k_pair in H. destruct H as [_ <-]. destruct (e_act e 0); eauto.
      - cbn in H. unfold printJoints in H. rewrite EB in H. cbn in H. apply k_some, k_pair in H. destruct H as [_ <-]. auto. }
    destruct ES as [->|[a ->]]; [exact SP|]. destruct SP. constructor; auto.
  - intros N1 N2 N3. unfold pressKey in H. pose proof (act_all k) as A. unfold act_ok in A.
    destruct (key_action k) as [| | | |j o|i o| | |a|] eqn:EK.
    + destruct (issueStop c (e_act e 0) s) as [c1 s1] eqn:E. apply k_some, k_pair in H. destruct H as [<- <-]. apply issueStop_spec in E.
      destruct (spd_stopped _ _ _ _ _ KC L E). constructor; auto.
    + apply Ascii.eqb_eq in A. subst. exfalso. apply N2. cbn. auto.
    + apply Ascii.eqb_eq in A. subst. apply k_some in H. unfold printJoints in H. destruct (k_board c); cbn in H.
      * exfalso. apply N3. auto.
      * apply issueStop_spec in H. eapply spd_stopped; eauto.
    + apply Ascii.eqb_eq in A. subst. exfalso. apply N2. cbn. auto.
    + apply joint_spec in H.
      assert (forall pre s1, started c e JointMode s pre s1 -> spd c (fun _ => 0%Z) s1 /\ length (k_cv s1) = 6%nat) as SS.
      { intros pre s1 [(E & _ & ->)|[_ P]].
        - split; auto. constructor.
          + rewrite (sp_cv _ _ _ SP). apply zero_ext. intros. apply (sp_ctl _ _ _ SP); auto. congruence.
          + intros _ i0 _. reflexivity.
          + intros _ F. congruence.
        - split; [eapply spd_stopped; eauto|]. rewrite (st_cv _ _ _ _ _ P), KC, repeat_length. exact L. }
      destruct H as [c2 s2 _ P|pre s1 c2 s2 _ _ ST P|pre s1 c2 s2 _ _ _ _ ST P|pre s1 c2 s2 q x B LL J _ Q W CL ST P|pre s1 c2 s2 _ _ _ _ ST P|pre s1 c2 s2 B LL J _ ST P].
      * eapply spd_stopped; eauto.
      * destruct (SS _ _ ST) as [S1 L1]. exact (spd_stopped _ _ _ _ _ KC L1 P).
      * destruct (SS _ _ ST) as [S1 L1]. exact (spd_stopped _ _ _ _ _ KC L1 P).
      * destruct (SS _ _ ST) as [S1 L1]. destruct P as [[_ P]|(_ & _ & ->)]; [exact (spd_stopped _ _ _ _ _ KC L1 P)|].
        constructor; cbn; try discriminate; [apply (sp_cv _ _ _ S1)|intros _ i _; reflexivity].
      * destruct (SS _ _ ST) as [S1 L1]. exact (spd_stopped _ _ _ _ _ KC L1 P).
      * destruct (SS _ _ ST) as [S1 L1]. cbv zeta in P. destruct P as [[_ P]|(_ & _ & ->)]; [exact (spd_stopped _ (set_jv _ s1) _ _ _ KC L1 P)|].
        constructor; cbn; try discriminate; [apply (sp_cv _ _ _ S1)|intros _ i _; reflexivity].
    + exfalso. apply N1. destruct (key_cart_rev _ _ _ EK) as [CK _]. eapply cart_in; eauto.
    + apply k_some in H. unfold toggleJointMode in H. destruct (k_board c) eqn:EB; cbn in H.
      * destruct (issueStop c (e_act e 0) s) as [c1 s1] eqn:E. apply k_pair in H. destruct H as [<- <-]. apply issueStop_spec in E. destruct (spd_stopped _ _ _ _ _ KC L E). constructor; auto.
      * apply issueStop_spec in H. eapply spd_stopped; eauto.
    + apply k_some in H. unfold toggleReferenceFrame in H. rewrite KC in H. cbn [negb] in H.
      destruct (issueStop c (e_act e 0) s) as [c1 s1] eqn:E. apply issueStop_spec in E. cbv zeta in H. destruct (spd_stopped _ _ _ _ _ KC L E) as [G1 G2 G3].
      destruct (e_frame e); cbn [negb] in H; apply k_pair in H; destruct H as [<- <-]; [destruct (k_thread c) eqn:ET|]; constructor; cbn; auto; try discriminate;
        intros _ F; rewrite (st_ctl _ _ _ _ _ E) in F; discriminate F.
    + exfalso. apply N2. apply orb_true_iff in A. destruct A as [A|A]; apply andb_true_iff in A; destruct A as [A _]; apply Ascii.eqb_eq in A; subst; cbn; auto.
    + apply k_some in H. apply issueStop_spec in H. eapply spd_stopped; eauto.
Qed.

Lemma spd_run : forall r x cs0 c s evs css s' n, k_configure r (Some x) = Some (cs0, c, s) -> k_run c evs s = Some (css, s') -> running evs ->
  (c_pose x = true -> answering evs) -> presses (match r with Some _ => true | None => false end) evs n -> spd c n s'.
Proof.
  intros r x cs0 c s evs css s' n HC HR RN AN PR.
  pose proof (configured _ _ _ _ _ HC) as (B & CA & _ & O & ECt & REST & _). destruct CA as (KC & KT & _).
  assert (k_board c = match r with Some _ => true | None => false end) as KB by (destruct r; cbn in B; apply B). rewrite <- KB in PR.
  revert css s' n HR RN AN PR. induction evs as [|ev evs IH] using rev_ind; intros css s' n HR RN AN PR.
  - inversion PR as [|evs0 | | |]; try (match goal with E : _ ++ _ = [] |- _ => destruct evs0; discriminate E end);
      try (match goal with E : ?l ++ _ = [] |- _ => destruct l; discriminate E end).
    cbn in HR. apply k_some, k_pair in HR. destruct HR as [_ <-]. constructor.
    + rewrite velocity_zero by (intros i _; reflexivity).
      pose proof (core_run _ _ _ _ _ [] [] s HC eq_refl) as C. pose proof (co_cv _ _ _ C) as L. rewrite KC in L.
      clear - L REST. destruct (k_cv s) as [|a [|b [|d [|e [|f [|g [|]]]]]]]; try discriminate L.
      repeat match goal with H : at_rest (_ :: _) |- _ => inversion H; clear H; subst | H : Forall _ (_ :: _) |- _ => inversion H; clear H; subst end. reflexivity.
    + intros _ i _. reflexivity.
    + intros _ E. congruence.
  - apply k_run_snoc in HR. destruct HR as (css1 & s1 & cs & R1 & ST & ->). apply Forall_app in RN. destruct RN as [RN1 RN2].
    destruct (presses_snoc _ _ _ _ PR) as (n1 & P1 & PK).
    assert (c_pose x = true -> answering evs) as AN1 by (intros E; specialize (AN E); apply Forall_app in AN; apply AN).
    specialize (IH _ _ _ R1 RN1 AN1 P1). destruct ev as [k e|t].
    + cbn [k_step] in ST. rewrite (over_run _ _ _ _ _ R1 O RN1) in ST. pose proof (core_run _ _ _ _ _ _ _ _ HC R1) as C1.
      assert (k_thread c = true -> e_preset e = true /\ e_stat e <> None) as AE.
      { intros E. rewrite KT in E. specialize (AN E). apply Forall_app in AN. destruct AN as [_ AN]. inversion AN; subst. assumption. }
      destruct (spd_key _ _ _ _ _ _ _ _ C1 KC AE IH ST) as (Q1 & Q2 & Q3).
      destruct PK as [(i & sg & CK & ->)|[[KK ->]|(K1 & K2 & K3 & ->)]]; auto.
    + subst n. apply tick_state in ST. subst. exact IH.
Qed.

(** ** C82 *)
Lemma velocities : forall r x cs0 c s evs k e css s' n i sg, k_configure r (Some x) = Some (cs0, c, s) -> c_pose x = false -> running evs -> cart_key k i sg ->
  presses (match r with Some _ => true | None => false end) (evs ++ [EKey k e]) n -> k_run c (evs ++ [EKey k e]) s = Some (css, s') ->
  exists css1 pre, css = css1 ++ [pre ++ [KMovv (velocity n)]].
Proof.
  intros r x cs0 c s evs k e css s' n i sg HC NP RN CK PR HR.
  assert (running (evs ++ [EKey k e])) as RN2.
  { apply Forall_app. split; auto. constructor; auto. intros ->. destruct CK as [[E _]|[E _]]; apply nth_error_In in E; cbn in E; intuition discriminate. }
  pose proof (spd_run _ _ _ _ _ _ _ _ _ HC HR RN2 ltac:(congruence) PR) as SP.
  pose proof (configured _ _ _ _ _ HC) as (_ & CA & _ & O & _). destruct CA as (KC & KT & _).
  apply k_run_snoc in HR. destruct HR as (css1 & s1 & cs & R1 & ST & ->). cbn [k_step] in ST. rewrite (over_run _ _ _ _ _ R1 O RN) in ST.
  unfold pressKey in ST. destruct (key_cart _ _ _ CK) as (o & EK & _ & _). rewrite EK in ST. apply k_some in ST. apply cart_spec in ST.
  destruct ST as [c2 s2 F P|pre s2 EC ET ST Z|pre s2 v EC ET ST EV|pre s2 EC ET ST Z F|pre s2 EC ET ST Z T|pre s2 x0 EC ET ST Z T X]; try congruence.
  exists css1, pre. pose proof (sp_cv _ _ _ SP) as E. cbn in E. rewrite E. reflexivity.
Qed.
