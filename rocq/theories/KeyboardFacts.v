(** Proofs about keyboardController. *)
From Coq Require Import Reals List Bool String Ascii ZArith Lra Lia.
From Verif Require Import Kdl KdlFacts KdlRot KdlRotFacts KinRep Vocab Keyboard KeyboardSpec.
Import ListNotations.
Open Scope R_scope.
Local Notation S := Datatypes.S.
Local Notation length := List.length.
Local Notation concat := List.concat.

Lemma k_some : forall A (x y : A), Some x = Some y -> x = y. Proof. congruence. Qed.
Lemma k_pair : forall A B (a a' : A) (b b' : B), (a, b) = (a', b') -> a = a' /\ b = b'. Proof. intros; split; congruence. Qed.

(** ** Keys *)
Ltac each_key k := destruct k as [b0 b1 b2 b3 b4 b5 b6 b7]; destruct b0, b1, b2, b3, b4, b5, b6, b7.
Definition sgn (o : k_op) : R := match o with Inc => 1 | Dec => -1 end.
Definition sgz (o : k_op) : Z := match o with Inc => 1%Z | Dec => (-1)%Z end.
Lemma apply_sgn : forall o x y, apply_op o x y = x + sgn o * y.
Proof. intros [] x y; cbn; lra. Qed.
Lemma sgz_sgn : forall o, IZR (sgz o) = sgn o. Proof. intros []; reflexivity. Qed.

Definition act_ok (k : ascii) : bool :=
  match key_action k with
  | AExit => Ascii.eqb k escape
  | AHelp => Ascii.eqb k "?"
  | APrintJ => Ascii.eqb k "j"
  | APrintC => Ascii.eqb k "p"
  | AJoint j o => match nth_error (chars (match o with Inc => "123456789" | Dec => "qwertyuio" end)) j with Some k' => Ascii.eqb k k' | None => false end
  | ACart i o => match nth_error (chars (match o with Inc => "asdfgh" | Dec => "zxcvbn" end)) i with Some k' => Ascii.eqb k k' | None => false end
  | AJMode => Ascii.eqb k "0"
  | AFrame => Ascii.eqb k "m"
  | ATool a => Ascii.eqb k "k" && Z.eqb a VOCAB_CC_ACTUATOR_OPEN_GRIPPER || Ascii.eqb k "l" && Z.eqb a VOCAB_CC_ACTUATOR_CLOSE_GRIPPER
  | AStop => negb (existsb (Ascii.eqb k) (chars "?jp0mkl123456789qwertyuioasdfghzxcvbn") || Ascii.eqb k escape)
  end.
Lemma act_all : forall k, act_ok k = true.
Proof. intros k. each_key k; vm_compute; reflexivity. Qed.

Lemma key_joint : forall k j sg, joint_key k j sg -> exists o, key_action k = AJoint j o /\ sg = sgn o.
Proof.
  intros k j sg [[E ->]|[E ->]]; [exists Inc|exists Dec]; split; auto;
    do 9 (destruct j as [|j]; [cbn in E; apply k_some in E; subst; reflexivity|]); destruct j; discriminate E.
Qed.
Lemma key_cart : forall k i sg, cart_key k i sg -> exists o, key_action k = ACart i o /\ sg = sgz o /\ (i < 6)%nat.
Proof.
  intros k j sg [[E ->]|[E ->]]; [exists Inc|exists Dec];
    do 6 (destruct j as [|j]; [cbn in E; apply k_some in E; subst; repeat split; lia|]); destruct j; discriminate E.
Qed.
Lemma key_stop : forall k, stop_key k -> key_action k = AStop \/ (key_action k = AExit /\ k = escape).
Proof.
  intros k (H1 & H2 & H3). pose proof (act_all k) as A. unfold act_ok in A.
  destruct (key_action k) as [| | | |j o|i o| | |a|]; auto.
  - right. split; auto. apply Ascii.eqb_eq; exact A.
  - exfalso. apply Ascii.eqb_eq in A. subst. apply H3. cbn. auto.
  - exfalso. apply Ascii.eqb_eq in A. subst. apply H3. cbn. auto.
  - exfalso. apply Ascii.eqb_eq in A. subst. apply H3. cbn. auto.
  - exfalso. destruct o; destruct (nth_error _ j) eqn:E in A; try discriminate A; apply Ascii.eqb_eq in A; subst; apply H1;
      apply nth_error_In in E; cbn in *; tauto.
  - exfalso. destruct o; destruct (nth_error _ i) eqn:E in A; try discriminate A; apply Ascii.eqb_eq in A; subst; apply H2;
      apply nth_error_In in E; cbn in *; tauto.
  - exfalso. apply Ascii.eqb_eq in A. subst. apply H3. cbn. tauto.
  - exfalso. apply Ascii.eqb_eq in A. subst. apply H3. cbn. tauto.
  - exfalso. apply orb_true_iff in A. destruct A as [A|A]; apply andb_true_iff in A; destruct A as [A _]; apply Ascii.eqb_eq in A; subst; apply H3; cbn; tauto.
Qed.
Lemma key_cart_rev : forall k i o, key_action k = ACart i o -> cart_key k i (sgz o) /\ (i < 6)%nat.
Proof.
  intros k i o E. pose proof (act_all k) as A. unfold act_ok in A. rewrite E in A.
  destruct o; destruct (nth_error _ i) eqn:N in A; try discriminate A; apply Ascii.eqb_eq in A; subst;
    (split; [|assert (nth_error (chars _) i <> None) as L by (rewrite N; discriminate); apply nth_error_Some in L; cbn in L; lia]).
  - left. auto.
  - right. auto.
Qed.
Lemma key_joint_rev : forall k j o, key_action k = AJoint j o -> joint_key k j (sgn o) /\ (j < 9)%nat.
Proof.
  intros k i o E. pose proof (act_all k) as A. unfold act_ok in A. rewrite E in A.
  destruct o; destruct (nth_error _ i) eqn:N in A; try discriminate A; apply Ascii.eqb_eq in A; subst;
    (split; [|assert (nth_error (chars _) i <> None) as L by (rewrite N; discriminate); apply nth_error_Some in L; cbn in L; lia]).
  - left. auto.
  - right. auto.
Qed.

(** ** Lists *)
Lemma put_length : forall A j (x : A) l, length (put j x l) = length l.
Proof. intros A j x l. revert j. induction l as [|y l IH]; intros [|j]; cbn; auto. Qed.
Lemma put_nth : forall A j (x : A) l i d, nth i (put j x l) d = if Nat.eqb i j && Nat.ltb j (length l) then x else nth i l d.
Proof.
  intros A j x l. revert j. induction l as [|y l IH]; intros [|j] [|i] d; cbn; auto.
  - rewrite andb_false_r. reflexivity.
  - rewrite IH. destruct (Nat.eqb i j); cbn; auto.
Qed.
Lemma nth_zeros : forall n j, nth j (repeat 0 n) 0 = 0.
Proof. induction n as [|n IH]; intros [|j]; cbn; auto. Qed.
Lemma zeros_rest : forall n, at_rest (repeat 0 n).
Proof. intros n. apply Forall_forall. intros x H. apply repeat_spec in H. exact H. Qed.

(** ** Runs *)
Lemma k_run_app : forall c evs1 evs2 s,
  k_run c (evs1 ++ evs2) s =
  match k_run c evs1 s with
  | None => None
  | Some (css1, s1) => match k_run c evs2 s1 with None => None | Some (css2, s2) => Some (css1 ++ css2, s2) end
  end.
Proof.
  intros c evs1. induction evs1 as [|ev evs1 IH]; intros evs2 s; cbn.
  - destruct (k_run c evs2 s) as [[css s']|]; reflexivity.
  - destruct (k_step c ev s) as [[cs s1]|]; auto. rewrite IH.
    destruct (k_run c evs1 s1) as [[css1 s2]|]; auto. destruct (k_run c evs2 s2) as [[css2 s3]|]; reflexivity.
Qed.
Lemma k_run_snoc : forall c evs ev s css s', k_run c (evs ++ [ev]) s = Some (css, s') ->
  exists css1 s1 cs, k_run c evs s = Some (css1, s1) /\ k_step c ev s1 = Some (cs, s') /\ css = css1 ++ [cs].
Proof.
  intros c evs ev s css s' H. rewrite k_run_app in H.
  destruct (k_run c evs s) as [[css1 s1]|] eqn:E1; [|discriminate]. cbn in H.
  destruct (k_step c ev s1) as [[cs s2]|] eqn:E2; [|discriminate].
  apply k_some in H. apply k_pair in H. destruct H as [<- <-]. exists css1, s1, cs. auto.
Qed.
Lemma k_run_length : forall c evs s css s', k_run c evs s = Some (css, s') -> length css = length evs.
Proof.
  intros c evs. induction evs as [|ev evs IH]; intros s css s' H; cbn in H.
  - apply k_some in H. apply k_pair in H. destruct H as [<- _]. reflexivity.
  - destruct (k_step c ev s) as [[cs s1]|]; [|discriminate]. destruct (k_run c evs s1) as [[css1 s2]|] eqn:E; [|discriminate].
    apply k_some in H. apply k_pair in H. destruct H as [<- _]. cbn. f_equal. eapply IH; eauto.
Qed.
(** A property of the events so far, the commands so far and the state *)
Lemma k_run_ind : forall c s0 cs0 (P : list k_event -> list k_cmd -> k_st -> Prop),
  P [] cs0 s0 ->
  (forall evs cs s ev c2 s2, P evs cs s -> k_step c ev s = Some (c2, s2) -> P (evs ++ [ev]) (cs ++ c2) s2) ->
  forall evs css s, k_run c evs s0 = Some (css, s) -> P evs (cs0 ++ concat css) s.
Proof.
  intros c s0 cs0 P H0 HS evs. induction evs as [|ev evs IH] using rev_ind; intros css s H.
  - cbn in H. apply k_some in H. apply k_pair in H. destruct H as [<- <-]. cbn. rewrite app_nil_r. exact H0.
  - apply k_run_snoc in H. destruct H as (css1 & s1 & cs & H1 & H2 & ->).
    rewrite concat_app. cbn. rewrite app_nil_r, app_assoc. eapply HS; eauto.
Qed.

(** ** Stopping *)
Record stopped (c : k_cfg) (s : k_st) (cs : list k_cmd) (s' : k_st) (ok : bool) : Prop := {
  st_ctl : k_ctl s' = NotControlling;
  st_jm : k_jm s' = k_jm s;
  st_jv : k_jv s' = if k_board c then repeat 0 (length (k_jv s)) else k_jv s;
  st_cv : k_cv s' = if k_cart c then repeat 0 (length (k_cv s)) else k_cv s;
  st_fr : k_fr s' = k_fr s;
  st_tcp : k_tcp s' = k_tcp s;
  st_delta : k_delta s' = k_delta s;
  st_traj : k_traj s' = k_traj s;
  st_over : k_over s' = k_over s;
  st_susp : k_susp s' = if k_cart c && k_thread c then true else k_susp s;
  st_act : k_act s' = if k_cart c && ok then VOCAB_CC_ACTUATOR_NONE else k_act s;
  st_cs : cs = if k_cart c then (if Z.eqb (k_act s) VOCAB_CC_ACTUATOR_NONE then [] else [KAct VOCAB_CC_ACTUATOR_STOP_GRIPPER ok]) ++ [KStop]
               else if k_board c then [match k_jm s with JPosition => KPosStop | JVelocity => KVelStop end] else [] }.
Lemma issueStop_spec : forall c ok s cs s', issueStop c ok s = (cs, s') -> stopped c s cs s' ok.
Proof.
  intros c ok s cs s' H. unfold issueStop in H.
  destruct (k_cart c) eqn:EC, (k_board c) eqn:EB, (k_thread c) eqn:ET, (Z.eqb (k_act s) VOCAB_CC_ACTUATOR_NONE) eqn:EA, ok, (k_jm s) eqn:EJ; cbn in H;
    apply k_pair in H; destruct H as [<- <-];
    (constructor; cbn; rewrite ?EC, ?EB, ?ET, ?EJ, ?EA; cbn; auto; try (apply Z.eqb_eq in EA; exact EA)).
Qed.

(** ** What a joint key does *)
Definition started (c : k_cfg) (e : k_env) (m : k_mode) (s : k_st) (pre : list k_cmd) (s1 : k_st) : Prop :=
  (k_ctl s = m /\ pre = [] /\ s1 = s) \/ (k_ctl s <> m /\ stopped c s pre s1 (e_act e 0)).
Lemma is_mode_true : forall m n, is_mode m n = true <-> m = n.
Proof. intros [] []; cbn; split; congruence. Qed.
Lemma start_spec : forall c e m s pre s1,
  (if negb (is_mode (k_ctl s) m) then issueStop c (e_act e 0) s else ([], s)) = (pre, s1) -> started c e m s pre s1.
Proof.
  intros c e m s pre s1 H. destruct (is_mode (k_ctl s) m) eqn:E; cbn in H.
  - apply k_pair in H. destruct H as [<- <-]. left. apply is_mode_true in E. auto.
  - right. split; [intro A; apply is_mode_true in A; congruence|]. eapply issueStop_spec; eauto.
Qed.
Definition next_vel (c : k_cfg) (j : nat) (o : k_op) (s : k_st) : R :=
  let v := nth j (k_jv s) 0 + sgn o * k_vstep c in
  if Rltb (nth j (k_maxv c) 0) (Rabs v) then sgn o * nth j (k_maxv c) 0 else v.
Inductive joint_view (c : k_cfg) (j : nat) (o : k_op) (e : k_env) (s : k_st) : list k_cmd -> k_st -> Prop :=
| jw_none : forall cs s', k_board c = false -> stopped c s cs s' (e_act e 0) -> joint_view c j o e s cs s'
| jw_axis : forall pre s1 c2 s2, k_board c = true -> (k_axes c <= j)%nat -> started c e JointMode s pre s1 -> stopped c s1 c2 s2 (e_act e 1) -> joint_view c j o e s (pre ++ c2) s2
| jw_pos_fail : forall pre s1 c2 s2, k_board c = true -> (j < k_axes c)%nat -> k_jm s = JPosition -> e_modes e = false \/ e_encs e = None ->
    started c e JointMode s pre s1 -> stopped c s1 c2 s2 (e_act e 1) -> joint_view c j o e s ((pre ++ [KPosModes (k_axes c)]) ++ c2) s2
| jw_pos : forall pre s1 c2 s2 q x, k_board c = true -> (j < k_axes c)%nat -> k_jm s = JPosition -> e_modes e = true -> e_encs e = Some q ->
    nth j (k_min c) 0 <= x <= nth j (k_max c) 0 -> clamped (nth j (k_min c) 0) (nth j (k_max c) 0) (nth j q 0 + sgn o * k_pstep c) x ->
    started c e JointMode s pre s1 ->
    (e_move e = false /\ stopped c s1 c2 s2 (e_act e 1)) \/ (e_move e = true /\ c2 = [] /\ s2 = set_ctl JointMode s1) ->
    joint_view c j o e s (((pre ++ [KPosModes (k_axes c)]) ++ [KPosMove j x]) ++ c2) s2
| jw_vel_fail : forall pre s1 c2 s2, k_board c = true -> (j < k_axes c)%nat -> k_jm s = JVelocity -> e_modes e = false ->
    started c e JointMode s pre s1 -> stopped c s1 c2 s2 (e_act e 1) -> joint_view c j o e s ((pre ++ [KVelModes (k_axes c)]) ++ c2) s2
| jw_vel : forall pre s1 c2 s2, k_board c = true -> (j < k_axes c)%nat -> k_jm s = JVelocity -> e_modes e = true ->
    started c e JointMode s pre s1 ->
    (let s1' := set_jv (put j (next_vel c j o s1) (k_jv s1)) s1 in
     (e_move e = false /\ stopped c s1' c2 s2 (e_act e 1)) \/ (e_move e = true /\ c2 = [] /\ s2 = set_ctl JointMode s1')) ->
    joint_view c j o e s (((pre ++ [KVelModes (k_axes c)]) ++ [KVelMove j (next_vel c j o s1)]) ++ c2) s2.

Lemma started_jm : forall c e m s pre s1, started c e m s pre s1 -> k_jm s1 = k_jm s.
Proof. intros c e m s pre s1 [(_ & _ & ->)|[_ H]]; [reflexivity|apply (st_jm _ _ _ _ _ H)]. Qed.

Lemma joint_spec : forall c j o e s cs s', jointCommand c j o e s = Some (cs, s') -> joint_view c j o e s cs s'.
Proof.
  intros c j o e s cs s' H. unfold jointCommand in H.
  destruct (k_board c) eqn:EB; cbn [negb] in H.
  2:{ apply k_some in H. apply jw_none; auto. eapply issueStop_spec; eauto. }
  destruct (if negb (is_mode (k_ctl s) JointMode) then issueStop c (e_act e 0) s else ([], s)) as [pre s1] eqn:E1.
  apply start_spec in E1. cbv zeta in H. pose proof (started_jm _ _ _ _ _ _ E1) as EJ.
  destruct (Nat.leb (k_axes c) j) eqn:EL.
  - apply Nat.leb_le in EL. destruct (issueStop c (e_act e 1) s1) as [c2 s2] eqn:E2. apply k_some in H. apply k_pair in H. destruct H as [<- <-].
    eapply jw_axis; eauto. eapply issueStop_spec; eauto.
  - apply Nat.leb_gt in EL. destruct (k_jm s1) eqn:EM; symmetry in EJ.
    + destruct (e_modes e) eqn:EMo; cbn [negb] in H.
      2:{ destruct (issueStop c (e_act e 1) s1) as [c2 s2] eqn:E2. apply k_some in H. apply k_pair in H. destruct H as [<- <-].
          eapply jw_pos_fail; eauto. eapply issueStop_spec; eauto. }
      destruct (e_encs e) as [q|] eqn:EE.
      2:{ destruct (issueStop c (e_act e 1) s1) as [c2 s2] eqn:E2. apply k_some in H. apply k_pair in H. destruct H as [<- <-].
          eapply jw_pos_fail; eauto. eapply issueStop_spec; eauto. }
      set (x := apply_op o (nth j q 0) (k_pstep c)) in *. set (lo := nth j (k_min c) 0) in *. set (hi := nth j (k_max c) 0) in *.
      destruct ((Rltb x lo || Rltb hi x) && Rltb hi lo) eqn:EU; [discriminate|].
      set (y := if Rltb x lo || Rltb hi x then if Rltb x lo then lo else if Rltb hi x then hi else x else x) in *.
      assert (lo <= y <= hi /\ clamped lo hi x y) as [Y1 Y2].
      { unfold y, clamped. destruct (Rltb x lo) eqn:A, (Rltb hi x) eqn:B; cbn [orb andb] in *;
          rewrite ?Rltb_true, ?Rltb_false in *; repeat split; intros; lra. }
      unfold x in Y2. rewrite apply_sgn in Y2.
      destruct (e_move e) eqn:EV; cbn [negb] in H.
      * apply k_some in H. apply k_pair in H. destruct H as [<- <-].
        rewrite <- (app_nil_r ((pre ++ _) ++ _)). eapply jw_pos; eauto.
      * destruct (issueStop c (e_act e 1) s1) as [c2 s2] eqn:E2. apply k_some in H. apply k_pair in H. destruct H as [<- <-].
        eapply jw_pos; eauto. left. split; auto. eapply issueStop_spec; eauto.
    + destruct (e_modes e) eqn:EMo; cbn [negb] in H.
      2:{ destruct (issueStop c (e_act e 1) s1) as [c2 s2] eqn:E2. apply k_some in H. apply k_pair in H. destruct H as [<- <-].
          eapply jw_vel_fail; eauto. eapply issueStop_spec; eauto. }
      rewrite !apply_sgn in H. rewrite Rplus_0_l, Rmult_1_r in H.
      fold (next_vel c j o s1) in H.
      destruct (e_move e) eqn:EV; cbn [negb] in H.
      * apply k_some in H. apply k_pair in H. destruct H as [<- <-].
        rewrite <- (app_nil_r ((pre ++ _) ++ _)). eapply jw_vel; eauto.
      * destruct (issueStop c (e_act e 1) (set_jv _ s1)) as [c2 s2] eqn:E2. apply k_some in H. apply k_pair in H. destruct H as [<- <-].
        eapply jw_vel; eauto. left. split; auto. eapply issueStop_spec; eauto.
Qed.
