(** Proofs about keyboardController: joint commands and stops. *)
From Coq Require Import Reals List Bool String Ascii ZArith Lra Lia.
From Verif Require Import Kdl KdlFacts KdlRot KdlRotFacts KinRep Vocab Keyboard KeyboardSpec KeyboardFacts KeyboardFacts2 KeyboardFacts3.
Import ListNotations.
Open Scope R_scope.
Local Notation S := Datatypes.S.
Local Notation length := List.length.
Local Notation concat := List.concat.

Definition is_move (x : k_cmd) : bool := match x with KPosMove _ _ | KVelMove _ _ => true | _ => false end.
Definition no_move (l : list k_cmd) : Prop := Forall (fun x => is_move x = false) l.
Lemma no_move_in : forall l x, no_move l -> In x l -> is_move x = true -> False.
Proof. intros l x N I E. unfold no_move in N. rewrite Forall_forall in N. rewrite (N x I) in E. discriminate. Qed.
Lemma stopped_no_move : forall c s cs s' ok, stopped c s cs s' ok -> no_move cs.
Proof.
  intros c s cs s' ok P. rewrite (st_cs _ _ _ _ _ P).
  destruct (k_cart c); [destruct (Z.eqb _ _); repeat constructor|]. destruct (k_board c); [destruct (k_jm s)|]; repeat constructor.
Qed.
Lemma started_no_move : forall c e m s cs s', started c e m s cs s' -> no_move cs.
Proof. intros c e m s cs s' [(_ & -> & _)|[_ P]]; [constructor|eapply stopped_no_move; eauto]. Qed.
Lemma no_move_app : forall a b, no_move a -> no_move b -> no_move (a ++ b).
Proof. intros. apply Forall_app; auto. Qed.
Lemma preset_no_move : forall c, no_move (preset c).
Proof. intros c. unfold preset. destruct (k_streaming c); repeat constructor. Qed.

Lemma step_moves : forall c ev s c2 s2 x, k_step c ev s = Some (c2, s2) -> In x c2 -> is_move x = true ->
  exists k e j o, ev = EKey k e /\ key_action k = AJoint j o /\ joint_view c j o e s c2 s2.
Proof.
  intros c ev s c2 s2 x H I M. destruct ev as [k e|now]; cbn in H.
  2:{ exfalso. destruct (k_thread c && negb (k_susp s)).
      - destruct (thread_run s now) as [l|] eqn:E; [|discriminate]. apply k_some, k_pair in H. destruct H as [<- <-].
        unfold thread_run in E. destruct (k_tcp s); [apply k_some in E; subst l; destruct I as [<-|[]]; discriminate M|].
        destruct (k_traj s); [|discriminate]. apply k_some in E; subst l. destruct I as [<-|[]]. destruct (line_pos _ _); discriminate M.
      - apply k_some, k_pair in H. destruct H as [<- <-]. destruct I. }
  destruct (k_over s); [apply k_some, k_pair in H; destruct H as [<- <-]; destruct I|].
  unfold pressKey in H. destruct (key_action k) as [| | | |j o|i o| | |a|] eqn:EK.
  5:{ exists k, e, j, o. repeat split; auto. apply joint_spec; auto. }
  all: exfalso; assert (no_move c2) as N; [|exact (no_move_in _ _ N I M)].
  - destruct (issueStop c (e_act e 0) s) as [c1 s1] eqn:E. apply k_some, k_pair in H. destruct H as [<- <-].
    eapply stopped_no_move, issueStop_spec; eauto.
  - apply k_some, k_pair in H. destruct H as [<- <-]. constructor.
  - apply k_some in H. unfold printJoints in H. destruct (k_board c); cbn in H.
    + apply k_pair in H. destruct H as [<- <-]. constructor.
    + eapply stopped_no_move, issueStop_spec; eauto.
  - apply k_some in H. unfold printCart in H. destruct (k_cart c); cbn in H.
    + apply k_pair in H. destruct H as [<- <-]. constructor.
    + eapply stopped_no_move, issueStop_spec; eauto.
  - apply k_some in H. apply cart_spec in H.
    destruct H as [c2 s2 _ P|pre s1 EC ET ST Z|pre s1 v EC ET ST EV|pre s1 EC ET ST Z F|pre s1 EC ET ST Z T|pre s1 x0 EC ET ST Z T X];
      try (apply no_move_app; [eapply started_no_move; eauto|]); try (eapply stopped_no_move; eauto; fail); try apply preset_no_move; repeat constructor.
  - apply k_some in H. unfold toggleJointMode in H. destruct (k_board c) eqn:EB; cbn in H.
    + destruct (issueStop c (e_act e 0) s) as [c1 s1] eqn:E. apply k_pair in H. destruct H as [<- <-].
      eapply stopped_no_move, issueStop_spec; eauto.
    + eapply stopped_no_move, issueStop_spec; eauto.
  - apply k_some in H. unfold toggleReferenceFrame in H. destruct (k_cart c) eqn:EC; cbn [negb] in H.
    + destruct (issueStop c (e_act e 0) s) as [c1 s1] eqn:E. apply issueStop_spec, stopped_no_move in E. cbv zeta in H.
      destruct (e_frame e); cbn [negb] in H; apply k_pair in H; destruct H as [<- <-]; apply no_move_app; auto; repeat constructor.
    + eapply stopped_no_move, issueStop_spec; eauto.
  - apply k_some in H. unfold actuateTool in H. destruct (k_cart c) eqn:EC; cbn [negb] in H.
    + apply k_pair in H. destruct H as [<- <-]. repeat constructor.
    + eapply stopped_no_move, issueStop_spec; eauto.
  - apply k_some in H. eapply stopped_no_move, issueStop_spec; eauto.
Qed.

(** where the motion is in the commands of a joint key *)
Lemma split_move : forall pre (x : k_cmd) post l1 y l2, no_move pre -> no_move post -> is_move y = true -> pre ++ x :: post = l1 ++ y :: l2 -> l1 = pre /\ y = x /\ l2 = post.
Proof.
  induction pre as [|p pre IH]; intros x post l1 y l2 N1 N2 M E.
  - destruct l1 as [|z l1]; cbn in E.
    + assert (x = y /\ post = l2) as [-> ->] by (split; congruence). auto.
    + exfalso. assert (post = l1 ++ y :: l2) as -> by congruence. eapply (no_move_in _ y N2); auto. apply in_or_app. right. left. reflexivity.
  - destruct l1 as [|z l1]; cbn in E.
    + exfalso. assert (p = y) as -> by congruence. inversion N1; congruence.
    + assert (p = z /\ pre ++ x :: post = l1 ++ y :: l2) as [-> E'] by (split; congruence). inversion N1; subst.
      destruct (IH _ _ _ _ _ H2 N2 M E') as (-> & -> & ->). auto.
Qed.

Lemma move_view : forall c j o e s c2 s2 l1 y l2, joint_view c j o e s c2 s2 -> is_move y = true -> c2 = l1 ++ y :: l2 ->
  exists pre s1, started c e JointMode s pre s1 /\ (j < k_axes c)%nat /\ k_board c = true /\ no_move l2 /\
  ((exists x q, y = KPosMove j x /\ l1 = pre ++ [KPosModes (k_axes c)] /\ k_jm s = JPosition /\ e_encs e = Some q /\
      nth j (k_min c) 0 <= x <= nth j (k_max c) 0 /\ clamped (nth j (k_min c) 0) (nth j (k_max c) 0) (nth j q 0 + sgn o * k_pstep c) x) \/
   (y = KVelMove j (next_vel c j o s1) /\ l1 = pre ++ [KVelModes (k_axes c)] /\ k_jm s = JVelocity)).
Proof.
  intros c j o e s c2 s2 l1 y l2 V M E.
  destruct V as [c2 s2 _ P|pre s1 c2 s2 _ _ ST P|pre s1 c2 s2 _ _ _ _ ST P|pre s1 c2 s2 q x B L J _ Q W CL ST P|pre s1 c2 s2 _ _ _ _ ST P|pre s1 c2 s2 B L J _ ST P].
  - exfalso. eapply (no_move_in c2); [eapply stopped_no_move; eauto| |exact M]. rewrite E. apply in_or_app. right. left. reflexivity.
  - exfalso. eapply (no_move_in (pre ++ c2)); [|rewrite E; apply in_or_app; right; left; reflexivity|exact M].
    apply no_move_app; [eapply started_no_move; eauto|eapply stopped_no_move; eauto].
  - exfalso. eapply (no_move_in ((pre ++ [KPosModes (k_axes c)]) ++ c2)); [|rewrite E; apply in_or_app; right; left; reflexivity|exact M].
    apply no_move_app; [apply no_move_app; [eapply started_no_move; eauto|repeat constructor]|eapply stopped_no_move; eauto].
  - rewrite <- app_assoc in E. cbn [app] in E. 
    assert (no_move c2) as N2 by (destruct P as [[_ P]|(_ & -> & _)]; [eapply stopped_no_move; eauto|constructor]).
    apply split_move in E; auto; [|apply no_move_app; [eapply started_no_move; eauto|repeat constructor]].
    destruct E as (-> & -> & ->). exists pre, s1. repeat (split; [assumption|]). left. exists x, q. auto 10.
  - exfalso. eapply (no_move_in ((pre ++ [KVelModes (k_axes c)]) ++ c2)); [|rewrite E; apply in_or_app; right; left; reflexivity|exact M].
    apply no_move_app; [apply no_move_app; [eapply started_no_move; eauto|repeat constructor]|eapply stopped_no_move; eauto].
  - rewrite <- app_assoc in E. cbn [app] in E. cbv zeta in P.
    assert (no_move c2) as N2 by (destruct P as [[_ P]|(_ & -> & _)]; [eapply stopped_no_move; eauto|constructor]).
    apply split_move in E; auto; [|apply no_move_app; [eapply started_no_move; eauto|repeat constructor]].
    destruct E as (-> & -> & ->). exists pre, s1. repeat (split; [assumption|]). right. auto.
Qed.

(** ** C57 *)
Lemma next_vel_bound : forall c j o s, 0 <= nth j (k_maxv c) 0 -> Rabs (next_vel c j o s) <= nth j (k_maxv c) 0.
Proof.
  intros c j o s H. unfold next_vel. set (v := nth j (k_jv s) 0 + _). destruct (Rltb _ (Rabs v)) eqn:E.
  - rewrite Rabs_mult, (Rabs_pos_eq (nth j (k_maxv c) 0)) by exact H. destruct o; cbn; rewrite ?Rabs_R1, ?Rabs_Ropp; try rewrite Rabs_R1; try lra.
    replace (Rabs (-1)) with 1 by (rewrite Rabs_left; lra). lra.
  - apply Rltb_false in E. exact E.
Qed.

Lemma in_steps : forall c evs s css s' x, k_run c evs s = Some (css, s') -> In x (concat css) ->
  exists evs1 ev css1 s1 c2 s2, k_run c evs1 s = Some (css1, s1) /\ k_step c ev s1 = Some (c2, s2) /\ In x c2.
Proof.
  intros c evs. induction evs as [|ev evs IH] using rev_ind; intros s css s' x H I.
  - cbn in H. apply k_some, k_pair in H. destruct H as [<- _]. destruct I.
  - apply k_run_snoc in H. destruct H as (css1 & s1 & cs & H1 & H2 & ->). rewrite concat_app in I. apply in_app_or in I. destruct I as [I|I].
    + eapply IH; eauto.
    + cbn in I. rewrite app_nil_r in I. exists evs, ev, css1, s1, cs, s'. auto.
Qed.

Lemma limits : forall r a cs0 c s evs css s', k_configure r a = Some (cs0, c, s) -> k_run c evs s = Some (css, s') ->
  (forall j q, In (KPosMove j q) (cs0 ++ concat css) -> exists b lo hi, r = Some b /\ r_limits b j = Some (lo, hi) /\ lo <= q <= hi) /\
  (forall j v, In (KVelMove j v) (cs0 ++ concat css) -> exists b lo hi, r = Some b /\ r_vlimits b j = Some (lo, hi) /\ (0 <= hi -> Rabs v <= hi)).
Proof.
  intros r a cs0 c s evs css s' HC HR.
  assert (no_move cs0) as N0.
  { unfold k_configure in HC. destruct r as [r|], a as [a|]; try discriminate HC;
      (destruct (k_configure_robot _) as [[f|] jm]; [|discriminate]); (destruct (k_configure_cart _ _) as [[c1 fr]|]; [|discriminate]);
      destruct (issueStop _ _ _) as [c2 s2] eqn:E in HC; apply k_some in HC; assert (c2 = cs0) as <- by congruence; eapply stopped_no_move, issueStop_spec; eauto. }
  apply configured in HC. destruct HC as (B & _ & C0 & _).
  split; intros j q I; apply in_app_or in I; (destruct I as [I|I]; [exfalso; eapply no_move_in; eauto|]);
    destruct (in_steps _ _ _ _ _ _ HR I) as (evs1 & ev & css1 & s1 & c2 & s2 & R1 & ST & I2);
    destruct (step_moves _ _ _ _ _ _ ST I2 eq_refl) as (k & e & j' & o & -> & _ & V);
    apply in_split in I2; destruct I2 as (l1 & l2 & E);
    pose proof (fun M => move_view _ _ _ _ _ _ _ _ _ _ V M E) as MV; destruct (MV eq_refl) as (pre & s3 & ST3 & L & KB & _ & [(x & q' & EY & _ & _ & _ & W & _)|(EY & _)]); try discriminate EY.
  - assert (j = j' /\ q = x) as [-> ->] by (split; congruence).
    destruct r as [b|]; [|cbn in B; destruct B; congruence]. destruct B as (_ & _ & _ & _ & _ & LM). destruct (LM _ L) as (vlo & E1 & E2).
    exists b, (nth j' (k_min c) 0), (nth j' (k_max c) 0). auto.
  - assert (j = j' /\ q = next_vel c j' o s3) as [-> ->] by (split; congruence).
    destruct r as [b|]; [|cbn in B; destruct B; congruence]. destruct B as (_ & _ & _ & _ & _ & LM). destruct (LM _ L) as (vlo & E1 & E2).
    exists b, vlo, (nth j' (k_maxv c) 0). repeat split; auto. apply next_vel_bound.
Qed.

(** ** Nothing undefined *)
Lemma joint_total : forall c j o e s, (k_board c = true -> (j < k_axes c)%nat -> nth j (k_min c) 0 <= nth j (k_max c) 0) -> jointCommand c j o e s <> None.
Proof.
  intros c j o e s H. unfold jointCommand.
  destruct (k_board c) eqn:EB; cbn [negb]; [|discriminate].
  destruct (if negb (is_mode (k_ctl s) JointMode) then issueStop c (e_act e 0) s else ([], s)) as [pre s1].
  destruct (Nat.leb (k_axes c) j) eqn:EL; [destruct (issueStop c (e_act e 1) s1); discriminate|]. apply Nat.leb_gt in EL.
  specialize (H eq_refl EL). cbv zeta.
  assert (forall l s, (let '(c2, s2) := issueStop c (e_act e 1) s in Some (l ++ c2, s2)) <> None) as GU by (intros l t; destruct (issueStop c (e_act e 1) t); discriminate).
  destruct (k_jm s1).
  - destruct (negb (e_modes e)); [apply GU|]. destruct (e_encs e); [|apply GU].
    replace (Rltb (nth j (k_max c) 0) (nth j (k_min c) 0)) with false by (symmetry; apply Rltb_false; exact H). rewrite andb_false_r.
    destruct (negb (e_move e)); [apply GU|discriminate].
  - destruct (negb (e_modes e)); [apply GU|]. destruct (negb (e_move e)); [apply GU|discriminate].
Qed.
Lemma step_total : forall c ev cs s, core c cs s -> (forall j, k_board c = true -> (j < k_axes c)%nat -> nth j (k_min c) 0 <= nth j (k_max c) 0) ->
  k_step c ev s <> None.
Proof.
  intros c ev cs s C H. destruct ev as [k e|now]; cbn.
  - destruct (k_over s); [discriminate|]. unfold pressKey.
    destruct (key_action k); try discriminate; [destruct (issueStop c (e_act e 0) s); discriminate|]. apply joint_total. apply H.
  - destruct (k_thread c) eqn:ET, (k_susp s) eqn:ES; cbn; try discriminate.
    unfold thread_run. destruct (k_tcp s) eqn:ETc; [discriminate|]. pose proof (co_traj _ _ _ C ES ETc). destruct (k_traj s); [discriminate|congruence].
Qed.
Lemma core_run : forall r a cs0 c s evs css s', k_configure r a = Some (cs0, c, s) -> k_run c evs s = Some (css, s') -> core c (cs0 ++ concat css) s'.
Proof.
  intros r a cs0 c s evs css s' HC HR. apply configured in HC. destruct HC as (_ & _ & C0 & _).
  refine (k_run_ind c s cs0 (fun _ cs s => core c cs s) C0 _ evs css s' HR). intros. eapply core_step; eauto.
Qed.
Lemma total : forall r a cs0 c s evs, k_configure r a = Some (cs0, c, s) ->
  (forall b j lo hi, r = Some b -> r_limits b j = Some (lo, hi) -> lo <= hi) -> k_run c evs s <> None.
Proof.
  intros r a cs0 c s evs HC HL. induction evs as [|ev evs IH] using rev_ind; [discriminate|].
  rewrite k_run_app. destruct (k_run c evs s) as [[css1 s1]|] eqn:E; [|congruence]. cbn.
  pose proof (core_run _ _ _ _ _ _ _ _ HC E) as C. pose proof (configured _ _ _ _ _ HC) as (B & _).
  destruct (k_step c ev s1) as [[c2 s2]|] eqn:E2; [discriminate|]. exfalso. revert E2. eapply step_total; eauto.
  intros j KB L. destruct r as [b|]; [|cbn in B; destruct B; congruence]. destruct B as (_ & _ & _ & _ & _ & LM). destruct (LM _ L) as (vlo & E1 & _). eapply HL; eauto.
Qed.

(** ** Stops *)
Lemma over_step : forall c ev s c2 s2, k_step c ev s = Some (c2, s2) -> k_over s = false ->
  match ev with EKey k _ => k <> escape | ETick _ => True end -> k_over s2 = false.
Proof.
  intros c ev s c2 s2 H O K. destruct ev as [k e|now]; cbn in H.
  - rewrite O in H. unfold pressKey in H. pose proof (act_all k) as A. unfold act_ok in A. destruct (key_action k) as [| | | |j o|i o| | |a|] eqn:EK.
    + apply Ascii.eqb_eq in A. contradiction.
    + apply k_some, k_pair in H. destruct H as [<- <-]. exact O.
    + apply k_some in H. unfold printJoints in H. destruct (k_board c); cbn in H.
      * apply k_pair in H. destruct H as [<- <-]. exact O.
      * apply issueStop_spec in H. rewrite (st_over _ _ _ _ _ H). exact O.
    + apply k_some in H. unfold printCart in H. destruct (k_cart c); cbn in H.
      * apply k_pair in H. destruct H as [<- <-]. exact O.
      * apply issueStop_spec in H. rewrite (st_over _ _ _ _ _ H). exact O.
    + apply joint_spec in H.
      assert (forall e m t pre t1, started c e m t pre t1 -> k_over t1 = k_over t) as SO.
      { intros e0 m t pre t1 [(_ & _ & ->)|[_ P]]; auto. apply (st_over _ _ _ _ _ P). }
      destruct H as [c2 s2 _ P|pre s1 c2 s2 _ _ ST P|pre s1 c2 s2 _ _ _ _ ST P|pre s1 c2 s2 q x B L J _ Q W CL ST P|pre s1 c2 s2 _ _ _ _ ST P|pre s1 c2 s2 B L J _ ST P].
      * rewrite (st_over _ _ _ _ _ P). exact O.
      * rewrite (st_over _ _ _ _ _ P), (SO _ _ _ _ _ ST). exact O.
      * rewrite (st_over _ _ _ _ _ P), (SO _ _ _ _ _ ST). exact O.
      * destruct P as [[_ P]|(_ & _ & ->)]; [rewrite (st_over _ _ _ _ _ P)|cbn]; rewrite (SO _ _ _ _ _ ST); exact O.
      * rewrite (st_over _ _ _ _ _ P), (SO _ _ _ _ _ ST). exact O.
      * cbv zeta in P. destruct P as [[_ P]|(_ & _ & ->)]; [rewrite (st_over _ _ _ _ _ P)|]; cbn; rewrite (SO _ _ _ _ _ ST); exact O.
    + apply k_some in H. apply cart_spec in H.
      assert (forall e m t pre t1, started c e m t pre t1 -> k_over t1 = k_over t) as SO.
      { intros e0 m t pre t1 [(_ & _ & ->)|[_ P]]; auto. apply (st_over _ _ _ _ _ P). }
      destruct H as [c2 s2 _ P|pre s1 EC ET ST Z|pre s1 v EC ET ST EV|pre s1 EC ET ST Z F|pre s1 EC ET ST Z T|pre s1 x0 EC ET ST Z T X];
        [rewrite (st_over _ _ _ _ _ P); exact O|cbn; rewrite (SO _ _ _ _ _ ST); exact O ..].
    + apply k_some in H. unfold toggleJointMode in H. destruct (k_board c) eqn:EB; cbn in H.
      * destruct (issueStop c (e_act e 0) s) as [c1 s1] eqn:E. apply k_pair in H. destruct H as [<- <-]. apply issueStop_spec in E. cbn. rewrite (st_over _ _ _ _ _ E). exact O.
      * apply issueStop_spec in H. rewrite (st_over _ _ _ _ _ H). exact O.
    + apply k_some in H. unfold toggleReferenceFrame in H. destruct (k_cart c) eqn:EC; cbn [negb] in H.
      * destruct (issueStop c (e_act e 0) s) as [c1 s1] eqn:E. apply issueStop_spec in E. cbv zeta in H.
        destruct (e_frame e); cbn [negb] in H; apply k_pair in H; destruct H as [<- <-]; [destruct (k_thread c)|]; cbn; rewrite (st_over _ _ _ _ _ E); exact O.
      * apply issueStop_spec in H. rewrite (st_over _ _ _ _ _ H). exact O.
    + apply k_some in H. unfold actuateTool in H. destruct (k_cart c) eqn:EC; cbn [negb] in H.
      * apply k_pair in H. destruct H as [<- <-]. destruct (e_act e 0); exact O.
      * apply issueStop_spec in H. rewrite (st_over _ _ _ _ _ H). exact O.
    + apply k_some in H. apply issueStop_spec in H. rewrite (st_over _ _ _ _ _ H). exact O.
  - destruct (k_thread c && negb (k_susp s)).
    + destruct (thread_run s now); [|discriminate]. apply k_some, k_pair in H. destruct H as [<- <-]. exact O.
    + apply k_some, k_pair in H. destruct H as [<- <-]. exact O.
Qed.
Lemma over_run : forall c evs s css s', k_run c evs s = Some (css, s') -> k_over s = false -> running evs -> k_over s' = false.
Proof.
  intros c evs. induction evs as [|ev evs IH] using rev_ind; intros s css s' H O R.
  - cbn in H. apply k_some, k_pair in H. destruct H as [_ <-]. exact O.
  - apply k_run_snoc in H. destruct H as (css1 & s1 & cs & H1 & H2 & _). apply Forall_app in R. destruct R as [R1 R2].
    eapply over_step; eauto. inversion R2; subst. assumption.
Qed.

(** once suspended, the thread is silent *)
Lemma silent : forall c nows s, k_susp s = true -> k_run c (map ETick nows) s = Some (repeat [] (length nows), s).
Proof.
  intros c nows s H. induction nows as [|t nows IH]; [reflexivity|]. cbn [map k_run k_step length repeat]. rewrite H, andb_false_r, IH. reflexivity.
Qed.

Lemma stops : forall r a cs0 c s evs k e nows css s', k_configure r a = Some (cs0, c, s) -> running evs -> stop_key k ->
  k_run c (evs ++ EKey k e :: map ETick nows) s = Some (css, s') ->
  exists css1 cs, css = css1 ++ cs :: repeat [] (length nows) /\ length css1 = length evs /\
    (a <> None -> In KStop cs /\ cart_motion (cs0 ++ concat css1 ++ cs) = [] /\
       (gripper_motion (cs0 ++ concat css1) <> VOCAB_CC_ACTUATOR_STOP_GRIPPER -> In (KAct VOCAB_CC_ACTUATOR_STOP_GRIPPER (e_act e 0)) cs)) /\
    (a = None -> joint_motion (cs0 ++ concat css1 ++ cs) = None).
Proof.
  intros r a cs0 c s evs k e nows css s' HC RN SK H.
  rewrite k_run_app in H. destruct (k_run c evs s) as [[css1 s1]|] eqn:E1; [|discriminate].
  pose proof (core_run _ _ _ _ _ _ _ _ HC E1) as C1. pose proof (configured _ _ _ _ _ HC) as (_ & CA & _ & O & _).
  pose proof (over_run _ _ _ _ _ E1 O RN) as O1. cbn [k_run k_step] in H. rewrite O1 in H.
  assert (exists cs s2, pressKey c k e s1 = Some (cs, s2) /\ exists s3, stopped c s1 cs s3 (e_act e 0) /\ k_susp s2 = k_susp s3) as (cs & s2 & EP & s3 & P & ES).
  { unfold pressKey. destruct (key_stop _ SK) as [->|[-> _]]; destruct (issueStop c (e_act e 0) s1) as [cs s2] eqn:EI; apply issueStop_spec in EI.
    - exists cs, s2. split; auto. exists s2. auto.
    - exists cs, (set_over s2). split; auto. exists s2. auto. }
  rewrite EP in H. pose proof (core_stopped _ _ _ _ _ _ C1 P) as C3.
  assert (k_susp s2 = true) as S2.
  { rewrite ES. apply (co_susp _ _ _ C3). rewrite (st_ctl _ _ _ _ _ P). discriminate. }
  rewrite (silent c nows s2 S2) in H. apply k_some, k_pair in H. destruct H as [<- _].
  exists css1, cs. split; [reflexivity|]. split; [eapply k_run_length; eauto|]. rewrite app_assoc. split.
  - intros A. assert (k_cart c = true) as KC by (destruct a; [apply CA|congruence]).
    pose proof (st_cs _ _ _ _ _ P) as EC. rewrite KC in EC. split; [rewrite EC; apply in_or_app; right; left; reflexivity|]. split.
    + rewrite EC. unfold cart_motion. rewrite !fold_left_app. reflexivity.
    + intros G. rewrite EC. destruct (co_grip _ _ _ C1) as [[_ G1]|[_ G1]]; [congruence|].
      replace (Z.eqb (k_act s1) VOCAB_CC_ACTUATOR_NONE) with false; [left; reflexivity|]. destruct G1 as [-> | ->]; reflexivity.
  - intros ->. destruct CA as [KC _]. eapply stopped_joint; eauto.
Qed.
