(** Proofs about keyboardController: from Cartesian to joint control, what joint keys command, modes and frames. *)
From Coq Require Import Reals List Bool String Ascii ZArith Lra Lia.
From Verif Require Import Kdl KdlFacts KdlRot KdlRotFacts KinRep Vocab Keyboard KeyboardSpec KeyboardFacts KeyboardFacts2 KeyboardFacts3 KeyboardFacts4.
Import ListNotations.
Open Scope R_scope.
Local Notation S := Datatypes.S.
Local Notation length := List.length.
Local Notation concat := List.concat.

Lemma split_app : forall A (a b l1 : list A) y l2, a ++ b = l1 ++ y :: l2 ->
  (exists l2', a = l1 ++ y :: l2' /\ l2 = l2' ++ b) \/ (exists l1', l1 = a ++ l1' /\ b = l1' ++ y :: l2).
Proof.
  intros A a. induction a as [|x a IH]; intros b l1 y l2 H.
  - right. exists l1. auto.
  - destruct l1 as [|z l1]; cbn in H.
    + left. exists a. assert (x = y /\ a ++ b = l2) as [-> <-] by (split; congruence). auto.
    + assert (x = z /\ a ++ b = l1 ++ y :: l2) as [-> E] by (split; congruence).
      destruct (IH _ _ _ _ E) as [(l & -> & ->)|(l & -> & ->)]; [left|right]; exists l; auto.
Qed.
Lemma split_steps : forall c evs s css s' l1 y l2, k_run c evs s = Some (css, s') -> concat css = l1 ++ y :: l2 ->
  exists evs1 ev css1 s1 s2 l1' l2', k_run c evs1 s = Some (css1, s1) /\ k_step c ev s1 = Some (l1' ++ y :: l2', s2) /\ l1 = concat css1 ++ l1'.
Proof.
  intros c evs. induction evs as [|ev evs IH] using rev_ind; intros s css s' l1 y l2 H E.
  - cbn in H. apply k_some, k_pair in H. destruct H as [<- _]. destruct l1; discriminate E.
  - apply k_run_snoc in H. destruct H as (css1 & s1 & cs & H1 & H2 & ->). rewrite concat_app in E. cbn in E. rewrite app_nil_r in E.
    apply split_app in E. destruct E as [(l & E & _)|(l & -> & ->)].
    + eapply IH; eauto.
    + exists evs, ev, css1, s1, s', l, l2. auto.
Qed.
Lemma configure_no_move : forall r a cs0 c s, k_configure r a = Some (cs0, c, s) -> no_move cs0.
Proof.
  intros r a cs0 c s HC. unfold k_configure in HC. destruct r as [r|], a as [a|]; try discriminate HC;
      (destruct (k_configure_robot _) as [[f|] jm]; [|discriminate]); (destruct (k_configure_cart _ _) as [[c1 fr]|]; [|discriminate]);
      destruct (issueStop _ _ _) as [c2 s2] eqn:E in HC; apply k_some in HC; assert (c2 = cs0) as <- by congruence; eapply stopped_no_move, issueStop_spec; eauto.
Qed.

(** ** C81 *)
Lemma handover : forall r a cs0 c s evs css s' l1 y l2, k_configure r a = Some (cs0, c, s) -> k_run c evs s = Some (css, s') ->
  cs0 ++ concat css = l1 ++ y :: l2 -> (exists j x, y = KPosMove j x \/ y = KVelMove j x) -> at_rest (cart_motion l1).
Proof.
  intros r a cs0 c s evs css s' l1 y l2 HC HR E M.
  assert (is_move y = true) as MY by (destruct M as (j & x & [-> | ->]); reflexivity).
  apply split_app in E. destruct E as [(l & E & _)|(l & -> & E)].
  - exfalso. apply (no_move_in cs0 y); auto; [eapply configure_no_move; eauto|]. rewrite E. apply in_or_app. right. left. reflexivity.
  - destruct (split_steps _ _ _ _ _ _ _ _ HR E) as (evs1 & ev & css1 & s1 & s2 & l1' & l2' & R1 & ST & ->).
    pose proof (core_run _ _ _ _ _ _ _ _ HC R1) as C1.
    assert (In y (l1' ++ y :: l2')) as IY by (apply in_or_app; right; left; reflexivity).
    destruct (step_moves _ _ _ _ _ _ ST IY MY) as (k & e & j & o & -> & _ & V).
    destruct (move_view _ _ _ _ _ _ _ _ _ _ V MY eq_refl) as (pre & s3 & ST3 & L & KB & _ & W).
    destruct (core_started _ _ _ _ _ _ _ C1 ST3) as (C3 & N3 & _).
    assert (exists m, l1' = pre ++ m /\ Forall quiet m) as (m & -> & Q).
    { destruct W as [(x & q & _ & -> & _)|(_ & -> & _)]; eexists; split; eauto; repeat constructor. }
    rewrite !app_assoc. destruct (quiet_folds ((cs0 ++ concat css1) ++ pre) m Q) as (_ & -> & _).
    apply (co_cart _ _ _ C3 N3).
Qed.
Lemma handover_silent : forall r a cs0 c s evs k e nows css s' j sg, k_configure r a = Some (cs0, c, s) -> running evs -> joint_key k j sg ->
  k_run c (evs ++ EKey k e :: map ETick nows) s = Some (css, s') -> exists css1, css = css1 ++ repeat [] (length nows).
Proof.
  intros r a cs0 c s evs k e nows css s' j sg HC RN JK H.
  change (evs ++ EKey k e :: map ETick nows) with (evs ++ [EKey k e] ++ map ETick nows) in H. rewrite app_assoc, k_run_app in H.
  destruct (k_run c (evs ++ [EKey k e]) s) as [[css1 s1]|] eqn:E1; [|discriminate].
  pose proof (core_run _ _ _ _ _ _ _ _ HC E1) as C1.
  assert (k_ctl s1 <> CartMode) as N.
  { apply k_run_snoc in E1. destruct E1 as (css2 & s2 & cs & R2 & ST & _). cbn in ST. pose proof (configured _ _ _ _ _ HC) as (_ & _ & _ & O & _).
    rewrite (over_run _ _ _ _ _ R2 O RN) in ST. unfold pressKey in ST. destruct (key_joint _ _ _ JK) as (o & EK & _). rewrite EK in ST. apply joint_spec in ST.
    destruct ST as [c2 s3 _ P|pre s1 c2 s3 _ _ ST P|pre s1 c2 s3 _ _ _ _ ST P|pre s1 c2 s3 q x B L J _ Q W CL ST P|pre s1 c2 s3 _ _ _ _ ST P|pre s1 c2 s3 B L J _ ST P];
      try (rewrite (st_ctl _ _ _ _ _ P); discriminate); cbv zeta in P; destruct P as [[_ P]|(_ & _ & ->)]; [rewrite (st_ctl _ _ _ _ _ P)|cbn| rewrite (st_ctl _ _ _ _ _ P)|cbn]; discriminate. }
  rewrite (silent c nows s1 (co_susp _ _ _ C1 N)) in H. apply k_some, k_pair in H. destruct H as [<- _]. exists css1. reflexivity.
Qed.

(** ** What each key leaves as it is *)
Lemma started_static : forall c e m t pre t1, started c e m t pre t1 -> k_jm t1 = k_jm t /\ k_fr t1 = k_fr t.
Proof. intros c e m t pre t1 [(_ & _ & ->)|[_ P]]; auto. split; [apply (st_jm _ _ _ _ _ P)|apply (st_fr _ _ _ _ _ P)]. Qed.
Lemma stopped_static : forall c t cs t1 ok, stopped c t cs t1 ok -> k_jm t1 = k_jm t /\ k_fr t1 = k_fr t.
Proof. intros c t cs t1 ok P. split; [apply (st_jm _ _ _ _ _ P)|apply (st_fr _ _ _ _ _ P)]. Qed.
Lemma not_toggle : forall k, key_action k <> AJMode -> key_action k <> AFrame -> Ascii.eqb k "0" = false /\ Ascii.eqb k "m" = false.
Proof. intros k H1 H2. split; apply Ascii.eqb_neq; intros ->; [apply H1|apply H2]; reflexivity. Qed.
Lemma key_static : forall c k e s c2 s2, pressKey c k e s = Some (c2, s2) ->
  k_jm s2 = (if Ascii.eqb k "0" && k_board c then other_mode (k_jm s) else k_jm s) /\
  k_fr s2 = (if Ascii.eqb k "m" && k_cart c && e_frame e then swapped (k_fr s) else k_fr s).
Proof.
  intros c k e s c2 s2 H. unfold pressKey in H. pose proof (act_all k) as A. unfold act_ok in A.
  destruct (key_action k) as [| | | |j o|i o| | |a|] eqn:EK.
  - apply Ascii.eqb_eq in A. subst. destruct (issueStop c (e_act e 0) s) as [c1 s1] eqn:E. apply k_some, k_pair in H. destruct H as [<- <-]. apply issueStop_spec in E. exact (stopped_static _ _ _ _ _ E).
  - apply Ascii.eqb_eq in A. subst. apply k_some, k_pair in H. destruct H as [<- <-]. auto.
  - apply Ascii.eqb_eq in A. subst. apply k_some in H. unfold printJoints in H. destruct (k_board c); cbn in H.
    + apply k_pair in H. destruct H as [<- <-]. auto.
    + apply issueStop_spec in H. exact (stopped_static _ _ _ _ _ H).
  - apply Ascii.eqb_eq in A. subst. apply k_some in H. unfold printCart in H. destruct (k_cart c); cbn in H.
    + apply k_pair in H. destruct H as [<- <-]. auto.
    + apply issueStop_spec in H. exact (stopped_static _ _ _ _ _ H).
  - assert (Ascii.eqb k "0" = false /\ Ascii.eqb k "m" = false) as [-> ->].
    { apply not_toggle; rewrite EK; discriminate. }
    cbn [andb]. apply joint_spec in H.
    destruct H as [c2 s2 _ P|pre s1 c2 s2 _ _ ST P|pre s1 c2 s2 _ _ _ _ ST P|pre s1 c2 s2 q x B L J _ Q W CL ST P|pre s1 c2 s2 _ _ _ _ ST P|pre s1 c2 s2 B L J _ ST P].
    + exact (stopped_static _ _ _ _ _ P).
    + apply started_static in ST. apply stopped_static in P. intuition congruence.
    + apply started_static in ST. apply stopped_static in P. intuition congruence.
    + apply started_static in ST. destruct P as [[_ P]|(_ & _ & ->)]; [apply stopped_static in P|cbn]; intuition congruence.
    + apply started_static in ST. apply stopped_static in P. intuition congruence.
    + apply started_static in ST. cbv zeta in P. destruct P as [[_ P]|(_ & _ & ->)]; [apply stopped_static in P; cbn in P|cbn]; intuition congruence.
  - assert (Ascii.eqb k "0" = false /\ Ascii.eqb k "m" = false) as [-> ->].
    { apply not_toggle; rewrite EK; discriminate. }
    cbn [andb]. apply k_some in H. apply cart_spec in H.
    destruct H as [c2 s2 _ P|pre s1 EC ET ST Z|pre s1 v EC ET ST EV|pre s1 EC ET ST Z F|pre s1 EC ET ST Z T|pre s1 x0 EC ET ST Z T X];
      [exact (stopped_static _ _ _ _ _ P)|apply started_static in ST; cbn; intuition congruence ..].
  - apply Ascii.eqb_eq in A. subst. apply k_some in H. unfold toggleJointMode in H. destruct (k_board c) eqn:EB; cbn in H.
    + destruct (issueStop c (e_act e 0) s) as [c1 s1] eqn:E. apply k_pair in H. destruct H as [<- <-]. apply issueStop_spec, stopped_static in E. destruct E as [<- <-]. auto.
    + apply issueStop_spec in H. exact (stopped_static _ _ _ _ _ H).
  - apply Ascii.eqb_eq in A. subst. apply k_some in H. unfold toggleReferenceFrame in H. destruct (k_cart c) eqn:EC; cbn [negb] in H.
    + destruct (issueStop c (e_act e 0) s) as [c1 s1] eqn:E. apply issueStop_spec, stopped_static in E. destruct E as [<- <-]. cbv zeta in H.
      destruct (e_frame e); cbn [negb] in H; apply k_pair in H; destruct H as [<- <-]; [destruct (k_thread c)|]; cbn; auto.
    + apply issueStop_spec in H. exact (stopped_static _ _ _ _ _ H).
  - assert (Ascii.eqb k "0" = false /\ Ascii.eqb k "m" = false) as [-> ->].
    { apply not_toggle; rewrite EK; discriminate. }
    cbn [andb]. apply k_some in H. unfold actuateTool in H. destruct (k_cart c) eqn:EC; cbn [negb] in H.
    + apply k_pair in H. destruct H as [<- <-]. destruct (e_act e 0); auto.
    + apply issueStop_spec in H. exact (stopped_static _ _ _ _ _ H).
  - assert (Ascii.eqb k "0" = false /\ Ascii.eqb k "m" = false) as [-> ->].
    { apply not_toggle; rewrite EK; discriminate. }
    cbn [andb]. apply k_some in H. apply issueStop_spec in H. exact (stopped_static _ _ _ _ _ H).
Qed.
Lemma tick_state : forall c t s c2 s2, k_step c (ETick t) s = Some (c2, s2) -> s2 = s.
Proof.
  intros c t s c2 s2 H. cbn in H. destruct (k_thread c && negb (k_susp s)); [destruct (thread_run s t); [|discriminate]|];
    apply k_some, k_pair in H; destruct H as [_ <-]; reflexivity.
Qed.
Lemma snoc_inj : forall A (l1 l2 : list A) x y, l1 ++ [x] = l2 ++ [y] -> l1 = l2 /\ x = y.
Proof. intros. apply app_inj_tail. assumption. Qed.

Lemma mode_run : forall c m0 evs s css s' m, k_run c evs s = Some (css, s') -> k_over s = false -> running evs -> k_board c = true ->
  k_jm s = m0 -> joint_mode_in_use m0 evs m -> k_jm s' = m.
Proof.
  intros c m0 evs s css s' m H O R B E0 J. revert css s' H R. induction J as [|evs e m J IH|evs k e m J IH N|evs t m J IH]; intros css s' H R.
  - cbn in H. apply k_some, k_pair in H. destruct H as [_ <-]. exact E0.
  - apply k_run_snoc in H. destruct H as (css1 & s1 & cs & H1 & H2 & _). apply Forall_app in R. destruct R as [R1 R2].
    cbn [k_step] in H2. rewrite (over_run _ _ _ _ _ H1 O R1) in H2. apply key_static in H2. destruct H2 as [H2 _]. rewrite B in H2. cbn in H2. rewrite H2, (IH _ _ H1 R1). reflexivity.
  - apply k_run_snoc in H. destruct H as (css1 & s1 & cs & H1 & H2 & _). apply Forall_app in R. destruct R as [R1 R2].
    cbn [k_step] in H2. rewrite (over_run _ _ _ _ _ H1 O R1) in H2. apply key_static in H2. destruct H2 as [H2 _].
    replace (Ascii.eqb k "0") with false in H2 by (symmetry; apply Ascii.eqb_neq; exact N). cbn in H2. rewrite H2. eapply IH; eauto.
  - apply k_run_snoc in H. destruct H as (css1 & s1 & cs & H1 & H2 & _). apply Forall_app in R. destruct R as [R1 R2].
    apply tick_state in H2. subst. eapply IH; eauto.
Qed.
Lemma frame_run : forall c f0 evs s css s' f, k_run c evs s = Some (css, s') -> k_over s = false -> running evs -> k_cart c = true ->
  k_fr s = f0 -> frame_in_use f0 evs f -> k_fr s' = f.
Proof.
  intros c f0 evs s css s' f H O R B E0 J. revert css s' H R.
  induction J as [|evs e f J IH F|evs e f J IH F|evs k e f J IH N|evs t f J IH]; intros css s' H R.
  - cbn in H. apply k_some, k_pair in H. destruct H as [_ <-]. exact E0.
  - apply k_run_snoc in H. destruct H as (css1 & s1 & cs & H1 & H2 & _). apply Forall_app in R. destruct R as [R1 R2].
    cbn [k_step] in H2. rewrite (over_run _ _ _ _ _ H1 O R1) in H2. apply key_static in H2. destruct H2 as [_ H2]. rewrite B, F in H2. cbn in H2. rewrite H2, (IH _ _ H1 R1). reflexivity.
  - apply k_run_snoc in H. destruct H as (css1 & s1 & cs & H1 & H2 & _). apply Forall_app in R. destruct R as [R1 R2].
    cbn [k_step] in H2. rewrite (over_run _ _ _ _ _ H1 O R1) in H2. apply key_static in H2. destruct H2 as [_ H2]. rewrite B, F in H2. cbn in H2. rewrite H2. eapply IH; eauto.
  - apply k_run_snoc in H. destruct H as (css1 & s1 & cs & H1 & H2 & _). apply Forall_app in R. destruct R as [R1 R2].
    cbn [k_step] in H2. rewrite (over_run _ _ _ _ _ H1 O R1) in H2. apply key_static in H2. destruct H2 as [_ H2].
    replace (Ascii.eqb k "m") with false in H2 by (symmetry; apply Ascii.eqb_neq; exact N). cbn in H2. rewrite H2. eapply IH; eauto.
  - apply k_run_snoc in H. destruct H as (css1 & s1 & cs & H1 & H2 & _). apply Forall_app in R. destruct R as [R1 R2].
    apply tick_state in H2. subst. eapply IH; eauto.
Qed.

(** ** What joint keys command *)
Lemma velocity_bounded : forall j cs hi, 0 <= hi -> (forall v, In (KVelMove j v) cs -> Rabs v <= hi) -> Rabs (joint_velocity j cs) <= hi.
Proof.
  intros j cs hi H. induction cs as [|x cs IH] using rev_ind; intros B.
  - unfold joint_velocity. cbn. rewrite Rabs_R0. exact H.
  - unfold joint_velocity. rewrite fold_left_app. cbn. fold (joint_velocity j cs).
    assert (Rabs (joint_velocity j cs) <= hi) as I by (apply IH; intros v I; apply B; apply in_or_app; auto).
    destruct x; auto; try (rewrite Rabs_R0; exact H). destruct (Nat.eqb j0 j) eqn:E; auto.
    apply Nat.eqb_eq in E. subst. apply B. apply in_or_app. right. left. reflexivity.
Qed.
Lemma configured_jm : forall r a cs0 c s b, k_configure r a = Some (cs0, c, s) -> r = Some b -> k_jm s = configured_mode b.
Proof.
  intros r a cs0 c s b HC ->. unfold k_configure in HC.
  destruct (k_configure_robot (Some b)) as [[f|] jm] eqn:ER; [|destruct a; discriminate HC].
  assert (jm = configured_mode b) as <-.
  { unfold k_configure_robot in ER. destruct (r_axes b); [|discriminate]. destruct (Nat.ltb 9 n); [discriminate|].
    destruct (all_some _); [|discriminate]. destruct (all_some _); [|discriminate]. unfold configured_mode.
    destruct (String.eqb (r_mode b) "pos"); [apply k_pair in ER; destruct ER; auto|]. destruct (String.eqb (r_mode b) "vel"); [apply k_pair in ER; destruct ER; auto|discriminate]. }
  destruct (k_configure_cart a _) as [[c1 fr]|]; [|destruct a; discriminate HC].
  destruct (issueStop _ _ _) as [c2 s2] eqn:E in HC. assert (s2 = s) as <- by (destruct a; congruence).
  apply issueStop_spec in E. apply (st_jm _ _ _ _ _ E).
Qed.

Lemma joint_commands : forall b a cs0 c s evs k e css s' j sg n lo hi vlo vhi,
  k_configure (Some b) a = Some (cs0, c, s) -> running evs -> joint_key k j sg ->
  k_run c (evs ++ [EKey k e]) s = Some (css, s') ->
  r_axes b = Some n -> (j < n)%nat -> r_limits b j = Some (lo, hi) -> r_vlimits b j = Some (vlo, vhi) ->
  e_modes e = true -> e_move e = true ->
  exists css1 pre, let before := cs0 ++ concat css1 ++ pre in
    (joint_mode_in_use (configured_mode b) evs JPosition -> forall q, e_encs e = Some q ->
       exists x, css = css1 ++ [pre ++ [KPosModes n; KPosMove j x]] /\ clamped lo hi (nth j q 0 + sg * r_pstep b) x) /\
    (joint_mode_in_use (configured_mode b) evs JVelocity -> 0 <= r_vstep b -> 0 <= vhi ->
       exists v, css = css1 ++ [pre ++ [KVelModes n; KVelMove j v]] /\ clamped (- vhi) vhi (joint_velocity j before + sg * r_vstep b) v).
Proof.
  intros b a cs0 c s evs k e css s' j sg n lo hi vlo vhi HC RN JK H EN L EL EV EM EMv.
  apply k_run_snoc in H. destruct H as (css1 & s1 & cs & R1 & ST & ->). cbn in ST.
  pose proof (configured _ _ _ _ _ HC) as (B & _ & _ & O & _). rewrite (over_run _ _ _ _ _ R1 O RN) in ST. unfold pressKey in ST.
  destruct (key_joint _ _ _ JK) as (o & EK & ->). rewrite EK in ST. apply joint_spec in ST.
  destruct B as (KB & EN2 & _ & EP & EVs & LM). assert (n = k_axes c) as -> by congruence. destruct (LM _ L) as (vlo' & EL2 & EV2).
  assert (lo = nth j (k_min c) 0 /\ hi = nth j (k_max c) 0) as [-> ->] by (split; congruence).
  assert (vhi = nth j (k_maxv c) 0) as -> by congruence. rewrite <- EP, <- EVs.
  pose proof (core_run _ _ _ _ _ _ _ _ HC R1) as C1.
  pose proof (fun m => mode_run c _ evs s css1 s1 m R1 O RN KB (configured_jm _ _ _ _ _ _ HC eq_refl)) as MR.
  destruct ST as [c2 s2 F P|pre s2 c2 s2' _ F ST P|pre s2 c2 s2' _ _ J F ST P|pre s2 c2 s2' q x _ _ J _ Q W CL ST P|pre s2 c2 s2' _ _ _ F ST P|pre s2 c2 s2' _ _ J _ ST P].
  - congruence.
  - lia.
  - exists css1, pre. split.
    + intros _ q EQ. destruct F; congruence.
    + intros M. apply MR in M. congruence.
  - exists css1, pre. split.
    + intros _ q' EQ. assert (q' = q) as -> by congruence. destruct P as [[F _]|(_ & -> & _)]; [congruence|]. exists x. split; [|exact CL].
      rewrite app_nil_r, <- app_assoc. reflexivity.
    + intros M. apply MR in M. congruence.
  - congruence.
  - exists css1, pre. split.
    + intros M. apply MR in M. congruence.
    + intros _ HS HV. cbv zeta in P. destruct P as [[F _]|(_ & -> & _)]; [congruence|]. exists (next_vel c j o s2).
      split; [rewrite app_nil_r, <- app_assoc; reflexivity|].
      destruct (core_started _ _ _ _ _ _ _ C1 ST) as (C2 & _). unfold next_vel. rewrite (co_vel _ _ _ C2 j). rewrite app_assoc.
      set (w := joint_velocity j _). assert (Rabs w <= nth j (k_maxv c) 0) as BW.
      { apply velocity_bounded; auto. intros v I. apply in_app_or in I. destruct I as [I|I].
        - destruct (limits _ _ _ _ _ _ _ _ HC R1) as [_ LV]. destruct (LV j v I) as (b' & lo' & hi' & EB & E2 & LE).
          assert (b' = b) as -> by congruence. rewrite EV2 in E2. assert (hi' = nth j (k_maxv c) 0) as -> by congruence. auto.
        - exfalso. apply (no_move_in pre (KVelMove j v)); auto. eapply started_no_move; eauto. }
      set (m := nth j (k_maxv c) 0) in *. set (t := k_vstep c) in *. clearbody w m t. clear - HS HV BW.
      apply Rabs_le_inv in BW || (unfold Rabs in BW).
      destruct (Rltb m (Rabs (w + sgn o * t))) eqn:E; [apply Rltb_true in E|apply Rltb_false in E]; unfold clamped;
        destruct o; cbn [sgn] in *; unfold Rabs in E; repeat match goal with |- context [Rcase_abs ?x] => destruct (Rcase_abs x) | H : context [Rcase_abs ?x] |- _ => destruct (Rcase_abs x) end;
        repeat split; intros; lra.
Qed.
