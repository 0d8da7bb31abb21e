(** Proofs about keyboardController: whole runs. *)
From Coq Require Import Reals List Bool String Ascii ZArith Lra Lia.
From Verif Require Import Kdl KdlFacts KdlRot KdlRotFacts KinRep Vocab Keyboard KeyboardSpec KeyboardFacts KeyboardFacts2.
Import ListNotations.
Open Scope R_scope.
Local Notation S := Datatypes.S.
Local Notation length := List.length.
Local Notation concat := List.concat.

Lemma stopped_joint : forall c cs s c2 s2 ok, core c cs s -> stopped c s c2 s2 ok -> k_cart c = false -> joint_motion (cs ++ c2) = None.
Proof.
  intros c cs s c2 s2 ok C P E. rewrite (st_cs _ _ _ _ _ P), E. unfold joint_motion. rewrite fold_left_app. fold (joint_motion cs).
  destruct (co_motion _ _ _ C E) as [-> | [-> ->]]; [destruct (k_board c)|]; try destruct (k_jm s); reflexivity.
Qed.

Lemma tool_codes : forall k a, key_action k = ATool a -> a = VOCAB_CC_ACTUATOR_OPEN_GRIPPER \/ a = VOCAB_CC_ACTUATOR_CLOSE_GRIPPER.
Proof.
  intros k a E. pose proof (act_all k) as A. unfold act_ok in A. rewrite E in A.
  apply orb_true_iff in A. destruct A as [A|A]; apply andb_true_iff in A; destruct A as [_ A]; apply Z.eqb_eq in A; auto.
Qed.

Lemma core_over : forall c cs s, core c cs s -> core c cs (set_over s).
Proof. intros c cs s C. constructor; apply C. Qed.

Lemma core_key : forall c k e cs s c2 s2, core c cs s -> pressKey c k e s = Some (c2, s2) -> core c (cs ++ c2) s2.
Proof.
  intros c k e cs s c2 s2 C H. unfold pressKey in H.
  destruct (key_action k) as [| | | |j o|i o| | |a|] eqn:EK.
  - destruct (issueStop c (e_act e 0) s) as [c1 s1] eqn:E. apply k_some, k_pair in H. destruct H as [<- <-].
    apply core_over. eapply core_stopped; eauto. eapply issueStop_spec; eauto.
  - apply k_some, k_pair in H. destruct H as [<- <-]. rewrite app_nil_r. exact C.
  - apply k_some in H. unfold printJoints in H. destruct (k_board c); cbn in H.
    + apply k_pair in H. destruct H as [<- <-]. rewrite app_nil_r. exact C.
    + eapply core_stopped; eauto. eapply issueStop_spec; eauto.
  - apply k_some in H. unfold printCart in H. destruct (k_cart c); cbn in H.
    + apply k_pair in H. destruct H as [<- <-]. rewrite app_nil_r. exact C.
    + eapply core_stopped; eauto. eapply issueStop_spec; eauto.
  - eapply core_joint; eauto. apply joint_spec; eauto.
  - apply k_some in H. eapply core_cart; eauto. apply cart_spec; eauto.
  - apply k_some in H. unfold toggleJointMode in H. destruct (k_board c) eqn:EB; cbn in H.
    + destruct (issueStop c (e_act e 0) s) as [c1 s1] eqn:E. apply k_pair in H. destruct H as [<- <-]. apply issueStop_spec in E.
      pose proof (core_stopped _ _ _ _ _ _ C E) as C1. constructor; try apply C1.
      intros EC. left. eapply stopped_joint; eauto.
    + eapply core_stopped; eauto. eapply issueStop_spec; eauto.
  - apply k_some in H. unfold toggleReferenceFrame in H. destruct (k_cart c) eqn:EC; cbn [negb] in H.
    + destruct (issueStop c (e_act e 0) s) as [c1 s1] eqn:E. apply issueStop_spec in E.
      pose proof (core_stopped _ _ _ _ _ _ C E) as C1.
      apply (core_quiet _ _ _ [KFrame (if Z.eqb (k_fr s1) BASE_FRAME then TCP_FRAME else BASE_FRAME)]) in C1; [|repeat constructor].
      cbv zeta in H. set (f := if Z.eqb (k_fr s1) BASE_FRAME then TCP_FRAME else BASE_FRAME) in *.
      destruct (e_frame e); cbn [negb] in H; apply k_pair in H; destruct H as [<- <-]; rewrite app_assoc; [|exact C1].
      destruct (k_thread c) eqn:ET; constructor; try apply C1; cbn; rewrite ?ET; auto.
      * intros A. rewrite (st_susp _ _ _ _ _ E), EC, ET in A. discriminate A.
      * pose proof (co_tcp _ _ _ C1) as A. rewrite ET in A. exact A.
    + eapply core_stopped; eauto. eapply issueStop_spec; eauto.
  - apply k_some in H. unfold actuateTool in H. destruct (k_cart c) eqn:EC; cbn [negb] in H.
    + apply k_pair in H. destruct H as [<- <-]. pose proof (tool_codes _ _ EK) as EA.
      assert (core c (cs ++ [KAct a (e_act e 0)]) (if e_act e 0 then set_act a s else s)) as C1; [|exact C1].
      destruct (e_act e 0); constructor; try apply C; unfold joint_motion, joint_velocity, cart_motion, gripper_motion; try (intros; rewrite fold_left_app; cbn); try apply C; auto.
    + eapply core_stopped; eauto. eapply issueStop_spec; eauto.
  - apply k_some in H. eapply core_stopped; eauto. eapply issueStop_spec; eauto.
Qed.

Lemma core_step : forall c ev cs s c2 s2, core c cs s -> k_step c ev s = Some (c2, s2) -> core c (cs ++ c2) s2.
Proof.
  intros c ev cs s c2 s2 C H. destruct ev as [k e|now]; cbn in H.
  - destruct (k_over s); [|eapply core_key; eauto]. apply k_some, k_pair in H. destruct H as [<- <-]. rewrite app_nil_r. exact C.
  - destruct (k_thread c && negb (k_susp s)).
    + destruct (thread_run s now) as [l|] eqn:E; [|discriminate]. apply k_some, k_pair in H. destruct H as [<- <-].
      apply core_quiet; auto. unfold thread_run in E. destruct (k_tcp s); [apply k_some in E; subst l; repeat constructor|].
      destruct (k_traj s); [|discriminate]. apply k_some in E; subst l. destruct (line_pos _ _); repeat constructor.
    + apply k_some, k_pair in H. destruct H as [<- <-]. rewrite app_nil_r. exact C.
Qed.

(** ** configure *)
Definition board_of (r : option k_robot) (c : k_cfg) : Prop :=
  match r with
  | None => k_board c = false /\ k_axes c = 0%nat
  | Some b => k_board c = true /\ r_axes b = Some (k_axes c) /\ (k_axes c <= 9)%nat /\ k_pstep c = r_pstep b /\ k_vstep c = r_vstep b /\
      forall j, (j < k_axes c)%nat -> exists vlo,
        r_limits b j = Some (nth j (k_min c) 0, nth j (k_max c) 0) /\ r_vlimits b j = Some (vlo, nth j (k_maxv c) 0)
  end.
Definition cart_of (a : option k_carto) (c : k_cfg) (fr : Z) : Prop :=
  match a with
  | None => k_cart c = false /\ k_thread c = false
  | Some x => k_cart c = true /\ k_thread c = c_pose x /\ k_period c = c_period x /\ c_frame x = Some (IZR fr) /\ (fr = BASE_FRAME \/ fr = TCP_FRAME)
  end.

Lemma all_some_nth : forall A (l : list (option A)) l', all_some l = Some l' -> length l' = length l /\ forall j d, (j < length l)%nat -> nth j l None = Some (nth j l' d).
Proof.
  intros A l. induction l as [|[x|] l IH]; intros l' H; cbn in H; try discriminate.
  - apply k_some in H. subst. split; auto. intros j d L. cbn in L. lia.
  - destruct (all_some l) as [l2|]; [|discriminate]. apply k_some in H. subst. destruct (IH _ eq_refl) as [E N].
    split; [cbn; auto|]. intros [|j] d L; cbn in *; auto. apply N. lia.
Qed.
Lemma limits_nth : forall A (f : nat -> option A) n l j d, all_some (map f (seq 0 n)) = Some l -> (j < n)%nat -> f j = Some (nth j l d).
Proof.
  intros A f n l j d H L. apply all_some_nth in H. destruct H as [_ N]. rewrite map_length, seq_length in N.
  rewrite <- (N j d L). rewrite (nth_indep _ None (f 0%nat)) by (rewrite map_length, seq_length; exact L).
  rewrite map_nth, seq_nth by exact L. reflexivity.
Qed.

Lemma nth_fst : forall (l : list (R * R)) j, nth j (map fst l) 0 = fst (nth j l (0, 0)).
Proof. intros l j. change 0 with (fst (0, 0)) at 1. apply map_nth. Qed.
Lemma nth_snd : forall (l : list (R * R)) j, nth j (map snd l) 0 = snd (nth j l (0, 0)).
Proof. intros l j. change 0 with (snd (0, 0)) at 1. apply map_nth. Qed.

Lemma configured : forall r a cs0 c s, k_configure r a = Some (cs0, c, s) ->
  board_of r c /\ cart_of a c (k_fr s) /\ core c cs0 s /\ k_over s = false /\ k_ctl s = NotControlling /\ at_rest (k_cv s) /\ at_rest (k_jv s).
Proof.
  intros r a cs0 c s H. unfold k_configure in H.
  assert (exists f jm c1 fr, k_configure_robot r = (Some f, jm) /\
     k_configure_cart a (f (KCfg false 0 [] [] [] 0 0 false false 0 false)) = Some (c1, fr) /\
     (let s0 := KSt NotControlling jm (repeat 0 (k_axes c1)) (if k_cart c1 then repeat 0 6 else []) VOCAB_CC_ACTUATOR_NONE fr
                           true (k_thread c1 && Z.eqb fr TCP_FRAME) [] None false in
      let '(cs, s) := issueStop c1 true s0 in Some (cs, c1, s)) = Some (cs0, c, s)) as (f & jm & c1 & fr & E1 & E2 & E3).
  { destruct r as [r|], a as [a|]; try discriminate H;
    (destruct (k_configure_robot _) as [[f|] jm] eqn:E1; [|discriminate]);
    (destruct (k_configure_cart _ _) as [[c1 fr]|] eqn:E2; [|discriminate]); exists f, jm, c1, fr; auto. }
  clear H. cbv zeta in E3. set (s0 := KSt _ _ _ _ _ _ _ _ _ _ _) in E3.
  destruct (issueStop c1 true s0) as [cs s1] eqn:ES. apply k_some in E3.
  assert (cs = cs0 /\ c1 = c /\ s1 = s) as (-> & -> & ->) by (repeat split; congruence). clear E3.
  apply issueStop_spec in ES.
  set (cz := KCfg false 0 [] [] [] 0 0 false false 0 false) in *.
  assert (board_of r (f cz) /\ k_cart (f cz) = false /\ k_thread (f cz) = false) as (B0 & B1 & B2).
  { unfold k_configure_robot in E1. destruct r as [b|]; [|apply k_pair in E1; destruct E1 as [E1 _]; apply k_some in E1; subst f; cbn; auto].
    destruct (r_axes b) as [n|] eqn:EN; [|discriminate].
    destruct (Nat.ltb 9 n) eqn:EL; [discriminate|]. apply Nat.ltb_ge in EL.
    destruct (all_some (map (r_limits b) (seq 0 n))) as [l|] eqn:EA; [|discriminate].
    destruct (all_some (map (r_vlimits b) (seq 0 n))) as [v|] eqn:EV; [|discriminate].
    assert (f = fun c => KCfg true n (map fst l) (map snd l) (map snd v) (r_pstep b) (r_vstep b) (k_cart c) (k_thread c) (k_period c) (k_streaming c)) as ->.
    { destruct (String.eqb (r_mode b) "pos"); [apply k_pair in E1; destruct E1 as [E1 _]; apply k_some in E1; auto|].
      destruct (String.eqb (r_mode b) "vel"); [apply k_pair in E1; destruct E1 as [E1 _]; apply k_some in E1; auto|discriminate]. }
    cbn. repeat split; auto. intros j L. exists (fst (nth j v (0, 0))).
    rewrite (limits_nth _ _ _ _ j (0, 0) EA L), (limits_nth _ _ _ _ j (0, 0) EV L).
    rewrite nth_fst, !nth_snd.
    split; f_equal; [destruct (nth j l (0, 0))|destruct (nth j v (0, 0))]; reflexivity. }
  assert (board_of r c /\ cart_of a c fr) as [BB CC].
  { unfold k_configure_cart in E2. destruct a as [x|]; [|apply k_some, k_pair in E2; destruct E2 as [<- <-]; split; [exact B0|cbn; auto]].
    destruct (c_frame x) as [q|] eqn:EF; [|discriminate].
    destruct (Reqb q (IZR BASE_FRAME) || Reqb q (IZR TCP_FRAME)) eqn:EQ; [|discriminate].
    assert (q = IZR (if Reqb q (IZR BASE_FRAME) then BASE_FRAME else TCP_FRAME)) as QF.
    { destruct (Reqb q (IZR BASE_FRAME)) eqn:EQ1; [apply Reqb_true in EQ1; exact EQ1|]. cbn [orb] in EQ. apply Reqb_true in EQ. exact EQ. }
    destruct (c_pose x) eqn:EP; [destruct (c_params x); [|discriminate]|]; apply k_some, k_pair in E2; destruct E2 as [<- <-];
      (split; [destruct r; cbn in *; exact B0|]); cbn; rewrite EF, <- QF; repeat split; auto; destruct (Reqb q (IZR BASE_FRAME)); auto. }
  assert (core c [] s0) as C0.
  { constructor; cbn; auto.
    - apply repeat_length.
    - destruct (k_cart c); reflexivity.
    - intros j. unfold joint_velocity. cbn. apply nth_zeros.
    - intros _. constructor.
    - intros A. discriminate A.
    - intros _ A. discriminate A.
    - intros EB. destruct r; cbn in BB; [|tauto]. destruct BB as [BB _]. congruence.
    - intros ET. destruct a; cbn in CC; tauto || (destruct CC as [_ CC]; congruence). }
  rewrite (st_fr _ _ _ _ _ ES). split; [exact BB|]. split; [exact CC|]. split; [exact (core_stopped _ _ _ _ _ _ C0 ES)|].
  split; [rewrite (st_over _ _ _ _ _ ES); reflexivity|]. split; [apply (st_ctl _ _ _ _ _ ES)|].
  rewrite (st_cv _ _ _ _ _ ES), (st_jv _ _ _ _ _ ES). cbn.
  split; [destruct (k_cart c)|destruct (k_board c)]; try apply zeros_rest. constructor.
Qed.
