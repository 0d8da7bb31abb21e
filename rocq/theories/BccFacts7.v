From Coq Require Import Reals ZArith List Bool Lra Lia.
From Verif Require Import Kdl Vocab Bcc BccSpec BccFacts BccAll BccFacts2 BccFacts3 BccFacts4 BccFacts5 BccFacts6.
Import ListNotations.
Open Scope R_scope.
Local Notation S := Datatypes.S.

(** ** Parameters *)
Lemma set_frozen c k v s tr o s' : currentState s <> VOCAB_CC_NOT_CONTROLLING -> exec (setParameter c k v) s tr o s' ->
  tr = [] /\ o = Done false /\ s' = s.
Proof. intros N. unfold setParameter. cbn [bind look exec]. apply Z.eqb_neq in N. rewrite N. cbn. auto. Qed.
Lemma sets_frozen c m s tr o s' : currentState s <> VOCAB_CC_NOT_CONTROLLING -> exec (setParameters c m) s tr o s' ->
  tr = [] /\ o = Done false /\ s' = s.
Proof. intros N. unfold setParameters. cbn [bind look exec]. apply Z.eqb_neq in N. rewrite N. cbn. auto. Qed.

Lemma reads_as_eq k s r : reads_as k s r <-> r = read_param k s.
Proof. unfold reads_as, getParameter. cbn. split; [intros (_ & E & _); congruence|intros ->; auto]. Qed.

Definition kept_but (k : Z) (s s' : st) : Prop := forall k', k' <> k -> read_param k' s' = read_param k' s.
Lemma reqb_frame v : negb (Reqb v (IZR BASE_FRAME)) && negb (Reqb v (IZR TCP_FRAME)) = false -> exists z, v = IZR z.
Proof. destruct (Reqb_spec v (IZR BASE_FRAME)); [eauto|]. destruct (Reqb_spec v (IZR TCP_FRAME)); [eauto|discriminate]. Qed.
Definition set_read (k : Z) (v : R) (s : st) (tr : list event) (o : outcome bool) (s' : st) : Prop :=
  (o = Done true -> (whole k -> exists z, v = IZR z) -> read_param k s' = Some v) /\
  (k <> VOCAB_CC_CONFIG_STREAMING_CMD -> o <> Done true -> s' = s) /\
  (streamingCommand s = VOCAB_CC_NOT_SET \/ k = VOCAB_CC_CONFIG_STREAMING_CMD \/ streamingCommand s' = streamingCommand s -> kept_but k s s').
Ltac keeps := let k' := fresh in let H := fresh in intros _ k' H; unfold read_param;
  repeat match goal with |- context [Z.eqb k' ?x] => destruct (Z.eqb_spec k' x); [try congruence; reflexivity|] end; reflexivity.
Lemma set_param_read c k v s tr o s' : exec (setParameter c k v) s tr o s' -> set_read k v s tr o s'.
Proof.
  assert (K0 : forall t o, o <> Done true -> set_read k v s t o s).
  { intros t o0 H. split; [contradiction|]. split; auto. intros _ k' _. reflexivity. }
  apply wp_sound. unfold setParameter. go. destruct Z.eqb; cbn [negb]; go; [|now apply K0].
  destruct (Z.eqb_spec k VOCAB_CC_CONFIG_GAIN) as [->|K1].
  { destruct Rltb; go; [now apply K0|]. split; [reflexivity|]. split; [congruence|keeps]. }
  destruct (Z.eqb_spec k VOCAB_CC_CONFIG_TRAJ_DURATION) as [->|K2].
  { destruct Rleb; go; [now apply K0|]. split; [reflexivity|]. split; [congruence|keeps]. }
  destruct (Z.eqb_spec k VOCAB_CC_CONFIG_CMC_PERIOD) as [->|K3].
  { go. intros a. brk; go; [|now apply K0]. destruct to_int as [z|] eqn:T; go; [|now apply K0].
    split; [|split; [congruence|keeps]]. intros _ W. destruct (W (or_introl eq_refl)) as (y & ->). apply to_int_IZR in T. now subst. }
  destruct (Z.eqb_spec k VOCAB_CC_CONFIG_WAIT_PERIOD) as [->|K4].
  { destruct Rleb; go; [now apply K0|]. destruct to_int as [z|] eqn:T; go; [|now apply K0].
    split; [|split; [congruence|keeps]]. intros _ W. destruct (W (or_intror (or_introl eq_refl))) as (y & ->). apply to_int_IZR in T. now subst. }
  destruct (Z.eqb_spec k VOCAB_CC_CONFIG_FRAME) as [->|K5].
  { destruct andb eqn:B; go; [now apply K0|]. destruct to_int as [z|] eqn:T; go; [|now apply K0].
    split; [|split; [congruence|keeps]]. intros _ _. apply reqb_frame in B. destruct B as (y & ->). apply to_int_IZR in T. now subst. }
  destruct (Z.eqb_spec k VOCAB_CC_CONFIG_STREAMING_CMD) as [->|K6]; [|now apply K0].
  destruct to_int as [z|] eqn:T; go; [|now apply K0].
  rewrite wp_bind. unfold presetStreamingCommand. go. set (s2 := setCurrentState VOCAB_CC_NOT_CONTROLLING s).
  assert (G : forall b t, wp (if negb b then Ret false else modify (set_streaming z) ;; Ret true) s2 t (set_read VOCAB_CC_CONFIG_STREAMING_CMD v s)).
  { intros [] t; cbn [negb]; go.
    - split; [|split; [congruence|keeps]]. intros _ W. destruct W as (y & ->); [right; now right|]. apply to_int_IZR in T. now subst.
    - split; [discriminate|split; [congruence|keeps]]. }
  assert (M : forall m t, wp (setControlModes c m) s2 t (fun t' o s' => match o with
     | Done a => wp (if negb a then Ret false else modify (set_streaming z) ;; Ret true) s' t' (set_read VOCAB_CC_CONFIG_STREAMING_CMD v s)
     | Trouble e => set_read VOCAB_CC_CONFIG_STREAMING_CMD v s t' (Trouble e) s' end)).
  { intros m t. apply exec_wp. intros tr' o' s1 E. apply set_modes in E. destruct E as (-> & _ & b & -> & _). apply G. }
  destruct orb; [apply M|]. destruct Z.eqb; [apply M|]. destruct Z.eqb; [apply M|]. go. apply (G false).
Qed.
(** setting another parameter keeps what is preset *)
Lemma set_other_streaming c k v s tr o s' : exec (setParameter c k v) s tr o s' -> k <> VOCAB_CC_CONFIG_STREAMING_CMD ->
  streamingCommand s' = streamingCommand s.
Proof.
  intros E N. assert (Al : all (fun _ => True) (fun a b => streamingCommand b = streamingCommand a) (setParameter c k v)).
  { unfold setParameter. apply Z.eqb_neq in N. rewrite N. pall; auto. }
  exact (proj1 (all_exec _ (fun a b => streamingCommand b = streamingCommand a) _ (fun _ => eq_refl) (fun _ _ _ X Y => eq_trans Y X) Al _ _ _ _ E)).
Qed.
Lemma params_read_back c k v s tr s' : exec (setParameter c k v) s tr (Done true) s' -> (whole k -> exists z, v = IZR z) ->
  reads_as k s' (Some v) /\ forall k' r, k' <> k -> (reads_as k' s' r <-> reads_as k' s r).
Proof.
  intros E W. pose proof (set_param_read _ _ _ _ _ _ _ E) as (A & _ & B). split.
  - apply reads_as_eq. symmetry. now apply A.
  - intros k' r N. rewrite !reads_as_eq. enough (kept_but k s s') as X by (now rewrite (X k' N)).
    apply B. right. destruct (Z.eq_dec k VOCAB_CC_CONFIG_STREAMING_CMD); [now left|right]. now apply (set_other_streaming _ _ _ _ _ _ _ E).
Qed.
Lemma params_refused c k v s tr o s' : exec (setParameter c k v) s tr o s' -> o <> Done true -> k <> VOCAB_CC_CONFIG_STREAMING_CMD -> s' = s.
Proof. intros E N K. now apply (set_param_read _ _ _ _ _ _ _ E). Qed.

(** ** Limits *)
Lemma robot_limits_spec robot js : forall a b d e, robot_limits robot js = Some (a, b, d, e) ->
  length a = length js /\ length b = length js /\ length d = length js /\ length e = length js /\
  forall i, (i < length js)%nat -> robot (nth i js 0%nat) = Some (nth i a 0, nth i b 0, nth i d 0, nth i e 0).
Proof.
  induction js as [|j js IH]; intros a b d e; cbn [robot_limits]; intros H.
  - injection H as <- <- <- <-. repeat split; auto. cbn. lia.
  - destruct (robot j) as [[[[a0 b0] d0] e0]|] eqn:Rj; [|discriminate].
    destruct (robot_limits robot js) as [[[[a1 b1] d1] e1]|]; [|discriminate]. injection H as <- <- <- <-.
    destruct (IH _ _ _ _ eq_refl) as (L1 & L2 & L3 & L4 & F). cbn [length]. repeat split; try (f_equal; assumption).
    intros [|i] Hi; cbn [nth]; [exact Rj|]. apply F. lia.
Qed.
Lemma open_robot g dur cmc w posd ff frame timed n refs robot sj started c s :
  open g dur cmc w posd ff frame timed n refs false robot sj started = Some (c, s) ->
  complete c /\ numJoints c = n /\ forall j, (j < n)%nat ->
    robot j = Some (nth j (qMin c) 0, nth j (qMax c) 0, nth j (qdotMin c) 0, nth j (qdotMax c) 0).
Proof.
  unfold open. destruct andb; [discriminate|]. destruct andb; [discriminate|]. destruct refs as [sp|]; [|discriminate].
  cbn [open_limits]. destruct robot_limits as [[[[a b] d] e]|] eqn:L; [|discriminate]. destruct negb; [discriminate|]. destruct negb; [discriminate|].
  intros H. injection H as <- <-. apply robot_limits_spec in L. rewrite seq_length in L. destruct L as (L1 & L2 & L3 & L4 & F).
  split; [|split; [reflexivity|]].
  - repeat split; cbn; auto. apply fill_length.
  - intros j Hj. cbn. specialize (F j Hj). now rewrite seq_nth in F.
Qed.
(** limits in the configuration: every cycle that reads the joints leaves the vectors' bounds *)
Lemma open_user g dur cmc w posd ff frame timed n refs robot sj started c s :
  open g dur cmc w posd ff frame timed (S n) refs true robot sj started = Some (c, s) ->
  forall s1 tr o s', currentState s1 <> VOCAB_CC_NOT_CONTROLLING -> exec (run c) s1 tr o s' -> unreadable tr = false -> o = Trouble OutOfBounds.
Proof.
  unfold open. destruct andb; [discriminate|]. destruct andb; [discriminate|]. destruct refs as [sp|]; [|discriminate].
  cbn [open_limits]. destruct negb; [discriminate|]. destruct negb; [discriminate|]. intros H. injection H as <- <-.
  intros s1 tr o s' NC. apply (wp_sound _ _ (fun tr o s' => unreadable tr = false -> o = Trouble OutOfBounds)). unfold run, cycle_body, read_encoders. go.
  apply Z.eqb_neq in NC. rewrite NC. go.
  assert (Q : forall t p, unreadable t = true -> wp (A := Datatypes.unit) p s1 t (fun tr o s' => unreadable tr = false -> o = Trouble OutOfBounds)).
  { intros t p U. apply exec_wp. intros tr' o' s'' _ F. exfalso. unfold unreadable in *. rewrite existsb_app, U in F. discriminate. }
  assert (Q2 : forall t p s2, unreadable t = true -> wp (A := Datatypes.unit) p s2 t (fun tr o s' => unreadable tr = false -> o = Trouble OutOfBounds)).
  { intros t p s2 U. apply exec_wp. intros tr' o' s'' _ F. exfalso. unfold unreadable in *. rewrite existsb_app, U in F. discriminate. }
  intros a1. destruct (ok a1) eqn:O1; cbn [negb]; go; [|apply Q2; cbn; now rewrite O1].
  intros a2. destruct (ok a2) eqn:O2; cbn [negb]; go; [|apply Q2; cbn; now rewrite O1, O2].
  intros a3. destruct (ok a3) eqn:O3; cbn [negb]; go; [|apply Q2; cbn; now rewrite O1, O2, O3].
  cbn. auto.
Qed.

(** ** Reference speeds *)
Definition no_speeds (e : event) : Prop := match fst e with SetRefSpeeds _ | GetRefSpeeds => False | _ => True end.
Definition is_done (e : event) : Prop := fst e = CheckMotionDone /\ ok (snd e) = true /\ done (snd e) = true.
Lemma in_force_skip v t1 t2 : Forall no_speeds t1 -> in_force v (t1 ++ t2) = in_force v t2.
Proof. induction 1 as [|[x a] t H _ IH]; [reflexivity|]. cbn. destruct x; cbn in H; try tauto; exact IH. Qed.
Lemma honest_skip n v t1 t2 : Forall no_speeds t1 -> honest n v (t1 ++ t2) -> honest n v t2.
Proof. induction 1 as [|[x a] t H _ IH]; [auto|]. cbn. destruct x; cbn in H; try tauto; exact IH. Qed.
Lemma mode_no_speeds m tr : Forall (mode_call m) tr -> Forall no_speeds tr /\ Forall (fun e => ~ is_done e) tr.
Proof.
  intros F. split; (eapply Forall_impl; [|exact F]); intros [x a]; unfold mode_call, no_speeds, is_done; cbn; destruct x; try tauto;
    intros _ (X & _); discriminate.
Qed.
Inductive movj_cycle (s : st) (tr : list event) (s' : st) : Prop :=
| mc_on : Forall no_speeds tr -> Forall (fun e => ~ is_done e) tr -> currentState s' = currentState s -> vmoStored s' = vmoStored s -> movj_cycle s tr s'
| mc_failed : Forall no_speeds tr -> Forall (fun e => ~ is_done e) tr -> currentState s' = VOCAB_CC_NOT_CONTROLLING -> movj_cycle s tr s'
| mc_done t a : tr = t ++ [(SetRefSpeeds (vmoStored s), a)] -> Forall no_speeds t -> currentState s' = VOCAB_CC_NOT_CONTROLLING -> movj_cycle s tr s'.
Ltac fad := repeat (first [apply Forall_nil | apply Forall_cons | apply Forall_app; split | assumption]);
  try (cbn; exact I); try (unfold is_done; cbn; intros (? & ? & ?); congruence).
Definition movj_body (s : st) (tr : list event) (o : outcome bool) (s1 : st) : Prop :=
  (o = Done true -> movj_cycle s tr s1) /\ (o = Done false -> Forall no_speeds tr /\ Forall (fun e => ~ is_done e) tr).
Lemma movj_body_spec c s : length (vmoStored s) = numJoints c -> wp (cycle_body c VOCAB_CC_MOVJ_CONTROLLING) s [] (movj_body s).
Proof.
  intros L. unfold cycle_body, read_encoders. change (Z.eqb VOCAB_CC_MOVJ_CONTROLLING VOCAB_CC_MOVJ_CONTROLLING) with true.
  assert (KE : forall t b s1, Forall no_speeds t -> Forall (fun e => ~ is_done e) t -> currentState s1 = currentState s -> vmoStored s1 = vmoStored s ->
     movj_body s t (Done b) s1).
  { intros t b s1 F G A B. split; [|auto]. intros _. now apply mc_on. }
  go. intros a1. brk; go; [|apply KE; fad; reflexivity]. intros a2. brk; go; [|apply KE; fad; reflexivity].
  intros a3. brk; go; [|apply KE; fad; reflexivity].
  destruct checkJointLimits as [[]|]; go; cbn [negb]; go; [|apply KE; fad; reflexivity|split; discriminate].
  unfold handleMovj. apply wp_check. intros am b A. destruct b; cbn [negb]; go; [|apply KE; fad; reflexivity].
  intros ad. brk; go; [|apply KE; fad; reflexivity]. destruct (done ad) eqn:D; go; [|apply KE; fad; reflexivity].
  cbn [vmoStored setCurrentState set_encoderErrors].
  unfold first_n. rewrite L, Nat.ltb_irrefl, <- L, firstn_all. go. intros ar. split; [|discriminate]. intros _.
  eapply mc_done; [reflexivity|fad|reflexivity].
Qed.
Lemma movj_cycles c s tr s' : currentState s = VOCAB_CC_MOVJ_CONTROLLING -> length (vmoStored s) = numJoints c -> exec (run c) s tr (Done tt) s' -> movj_cycle s tr s'.
Proof.
  intros Hs L E. unfold run in E. cbn [bind look exec] in E. rewrite Hs in E. change (Z.eqb _ _) with false in E. cbn match in E.
  apply exec_bind in E. destruct E as [(b & t1 & t2 & s2 & -> & E1 & E2)|(e & X & _)]; [|discriminate].
  pose proof (wp_sound _ _ _ _ _ _ (movj_body_spec c s L) E1) as (B1 & B2). destruct b.
  - cbn in E2. destruct E2 as (-> & _ & ->). rewrite app_nil_r. now apply B1.
  - destruct (B2 eq_refl) as (F & G). cbn [bind modify exec] in E2. apply exec_bind in E2.
    destruct E2 as [(b & t3 & t4 & s3 & -> & E3 & E4)|(e & X & _)]; [|discriminate]. cbn in E4. destruct E4 as (-> & _ & ->).
    apply stop_spec in E3. destruct E3 as (_ & -> & t' & a & -> & FM). apply mode_no_speeds in FM. destruct FM as (FM1 & FM2).
    rewrite app_nil_r. apply mc_failed; [fad|fad|reflexivity].
Qed.
Lemma trace_cons o tr b h : trace_of ((o, tr, b) :: h) = tr ++ trace_of h. Proof. reflexivity. Qed.
Lemma movj_restores c h : forall s s' v0 v, currentState s = VOCAB_CC_MOVJ_CONTROLLING -> vmoStored s = v0 -> length v0 = numJoints c ->
  Forall (fun e => fst (fst e) = OCycle) h -> history c s h s' ->
  (forall w a, In (SetRefSpeeds w, a) (trace_of h) -> ok a = true) ->
  (exists a, In (CheckMotionDone, a) (trace_of h) /\ ok a = true /\ done a = true) -> in_force v (trace_of h) = v0.
Proof.
  induction h as [|[[o tr] b] h IH]; intros s s' v0 v Hs V L F H A D.
  - destruct D as (a & [] & _).
  - apply history_cons in H. destruct H as (s1 & E & H). apply Forall_cons_iff in F. destruct F as (Fo & F). cbn in Fo. subst o.
    cbn [do_op] in E. apply exec_then in E. destruct E as ([] & E & ->). subst v0.
    rewrite trace_cons in *. destruct (movj_cycles _ _ _ _ Hs L E) as [N1 N2 S1 V1|N1 N2 S1|t a -> N1 S1].
    + rewrite in_force_skip by exact N1. eapply (IH s1 s' (vmoStored s) v); eauto.
      * congruence.
      * intros w a Hin. apply (A w a). apply in_app_iff. now right.
      * destruct D as (a & D1 & D2). exists a. split; [|exact D2]. apply in_app_iff in D1. destruct D1 as [D1|D1]; [|exact D1].
        exfalso. rewrite Forall_forall in N2. apply (N2 _ D1). split; [reflexivity|exact D2].
    + exfalso. destruct (idle_cycles _ _ _ _ S1 F H) as (_ & G). destruct D as (a & D1 & D2). apply in_app_iff in D1. destruct D1 as [D1|D1].
      * rewrite Forall_forall in N2. apply (N2 _ D1). split; [reflexivity|exact D2].
      * unfold trace_of in D1. apply in_concat in D1. destruct D1 as (t & T1 & T2). apply in_map_iff in T1. destruct T1 as (e & <- & T1).
        rewrite Forall_forall in G. rewrite (G _ T1) in T2. contradiction.
    + destruct (idle_cycles _ _ _ _ S1 F H) as (_ & G).
      assert (T : trace_of h = []).
      { clear - G. unfold trace_of. induction G as [|e l He _ IH]; [reflexivity|]. cbn. now rewrite He, IH. }
      rewrite T, app_nil_r, in_force_skip by exact N1. cbn.
      rewrite (A (vmoStored s) a); [reflexivity|]. apply in_app_iff. left. apply in_app_iff. right. now left.
Qed.
Lemma fill_firstn n l : length (firstn n l) = n -> fill 0 n l = firstn n l.
Proof.
  intros L. apply nth_ext with (d := 0) (d' := 0); [now rewrite fill_length|]. rewrite fill_length. intros i Hi.
  rewrite fill_nth, nth_firstn by assumption. reflexivity.
Qed.
Lemma speeds_restored c xd tr h s s' v : history c s ((OMovj xd, tr, true) :: h) s' -> Forall (fun e => fst (fst e) = OCycle) h ->
  length v = numJoints c -> honest (numJoints c) v (tr ++ trace_of h) ->
  (forall w a, In (SetRefSpeeds w, a) (trace_of h) -> ok a = true) ->
  (exists a, In (CheckMotionDone, a) (trace_of h) /\ ok a = true /\ done a = true) ->
  motions tr <> [] -> in_force v (tr ++ trace_of h) = v.
Proof.
  intros H F L Ho A D M. apply history_cons in H. destruct H as (s1 & E & H). cbn [do_op] in E. apply movj_runs in E.
  inversion E as [| | |aq ai H1 H2 H3| |aq ai ag w av T tr' o s2 E1 E2 E3 E4 E5 E6]; subst; [exfalso; apply M; reflexivity|].
  inversion E6 as [| | |? ? tm ap ? Hv Mo Le X1 X2 X3 Hp]; subst. clear E6 E.
  cbn [app honest] in Ho. destruct Ho as (Ho & _). specialize (Ho E3).
  cbn [app in_force]. rewrite <- app_assoc. pose proof Mo as (_ & FM & _). apply mode_no_speeds in FM. destruct FM as (FM & _).
  rewrite in_force_skip by exact FM. cbn [app in_force]. rewrite Hp in *. eapply movj_restores; eauto.
  - reflexivity.
  - cbn. rewrite <- Ho. apply fill_firstn. now rewrite Ho.
Qed.

(** ** Fail-fast *)
Lemma minus_spec a : forall b room d, minus a b room = Some d -> length d = length a /\ (length a <= length b)%nat /\ (length a <= room)%nat /\
  forall j, (j < length a)%nat -> nth j d 0 = nth j a 0 - nth j b 0.
Proof.
  induction a as [|x a IH]; intros b room d; cbn [minus].
  - intros H. injection H as <-. cbn. repeat split; auto; lia.
  - destruct b as [|y b]; [discriminate|]. destruct room as [|room]; [discriminate|]. destruct (minus a b room) as [r|] eqn:E; [|discriminate].
    intros H. injection H as <-. destruct (IH _ _ _ E) as (L1 & L2 & L3 & N). cbn [length]. repeat split; try lia.
    intros [|j] Hj; cbn [nth]; [reflexivity|]. apply N. lia.
Qed.
Lemma solved_app t1 t2 : solved (t1 ++ t2) = solved t1 ++ solved t2.
Proof. induction t1 as [|[x a] t1 IH]; [reflexivity|]. cbn. destruct x; rewrite IH; reflexivity. Qed.
Lemma checkJointLimits_long c q : checkJointLimits c q = Some true -> (numJoints c <= length q)%nat.
Proof.
  intros H. unfold checkJointLimits in H. assert (G : forall js, limits_loop c q js = Some true -> forall j, In j js -> (j < length q)%nat).
  { induction js as [|j js IH]; cbn [limits_loop]; intros X i Hi; [contradiction|].
    destruct (nth_error q j) as [v|] eqn:E; [|discriminate]. destruct (nth_error (qMin c) j); [|discriminate]. destruct (nth_error (qMax c) j); [|discriminate].
    destruct orb; [discriminate|]. destruct Hi as [<-|Hi]; [apply nth_error_Some; congruence|now apply IH]. }
  destruct (numJoints c) as [|n]; [lia|]. assert (n < length q)%nat; [|lia]. apply (G _ H). apply in_seq. lia.
Qed.
Lemma map_seq_nth (f : nat -> R) n j : (j < n)%nat -> nth j (map f (seq 0 n)) 0 = f j.
Proof.
  intros H. rewrite (nth_indep _ 0 (f 0%nat)) by (now rewrite map_length, seq_length). rewrite map_nth, seq_nth by exact H. reflexivity.
Qed.
Lemma slow_ext c v w : (forall j, (j < numJoints c)%nat -> nth j v 0 = nth j w 0) -> slow c v -> slow c w.
Proof. intros H Sl j Hj. rewrite <- (H j Hj). now apply Sl. Qed.
Lemma quiet_positions ts time : forall x s tr o s', exec (positions ts time x) s tr o s' -> solved tr = [] /\ s' = s.
Proof.
  induction ts as [|t ts IH]; intros x s tr o s'; cbn [positions bind ask exec].
  - intros (-> & _ & ->). auto.
  - intros (a & tr' & -> & E). apply IH in E. exact E.
Qed.
Lemma quiet_max ts : forall m s tr o s', exec (max_duration ts m) s tr o s' -> solved tr = [] /\ s' = s.
Proof.
  induction ts as [|t ts IH]; intros m s tr o s'; cbn [max_duration bind ask exec].
  - intros (-> & _ & ->). auto.
  - intros (a & tr' & -> & E). apply IH in E. exact E.
Qed.
Lemma failfast_loop_spec c ts step maxDur fuel : forall interval oldQ buf s tr s',
  exec (failfast_loop c ts fuel interval step maxDur oldQ buf) s tr (Done true) s' -> chained oldQ (solved tr) /\ Forall (checked c) (solved tr).
Proof.
  induction fuel as [|fuel IH]; intros i q buf s tr s'; cbn [failfast_loop]; destruct Rltb; cbn [exec]; try (intros (-> & _); cbn; auto).
  + intros E. apply exec_bind in E. destruct E as [(x & t1 & t2 & s1 & -> & E1 & E2)|(e & X & _)]; [|discriminate].
    apply quiet_positions in E1. destruct E1 as (Q1 & ->). rewrite solved_app, Q1. cbn [app]. cbn [bind ask exec] in E2.
    destruct E2 as (a & tr2 & -> & E2). cbn [solved]. destruct (ok a) eqn:Oa; cbn [negb] in E2; [|cbn in E2; destruct E2 as (_ & X & _); discriminate].
    destruct (minus (vals a) q (length buf)) as [d|] eqn:Mi; cbn [need bind] in E2; [|cbn in E2; destruct E2 as (_ & X & _); discriminate].
    destruct (checkJointLimits c (vals a)) as [[]|] eqn:Cl; cbn [need bind negb] in E2; try (cbn in E2; destruct E2 as (_ & X & _); discriminate).
    destruct (checkJointVelocities c (overwrite buf d)) as [[]|] eqn:Cv; cbn [need bind negb] in E2; try (cbn in E2; destruct E2 as (_ & X & _); discriminate).
    apply IH in E2. destruct E2 as (C1 & C2). split; [split; [reflexivity|exact C1]|]. constructor; [|exact C2].
    pose proof (checkJointLimits_long _ _ Cl) as Le. apply limits_true in Cl. apply velocities_true in Cv. destruct Cv as (Cv & _).
    apply minus_spec in Mi. destruct Mi as (L1 & _ & _ & N). split; [exact Oa|]. split; [exact Cl|]. cbn [fst snd].
    eapply slow_ext; [|exact Cv]. intros j Hj. unfold overwrite, displacement. rewrite app_nth1 by lia. rewrite N by lia.
    now rewrite (map_seq_nth (fun j => nth j (vals a) 0 - nth j q 0)).
Qed.
Lemma failfast_spec c fuel q s tr s' : exec (doFailFastChecks c fuel q) s tr (Done true) s' -> chained q (solved tr) /\ Forall (checked c) (solved tr).
Proof.
  unfold doFailFastChecks. cbn [bind look exec]. destruct (trajectories s) as [|t ts]; [cbn; intros (_ & X & _); discriminate|].
  cbn [bind ask exec]. intros (p & t1 & -> & n & t2 & -> & E). apply exec_bind in E.
  destruct E as [(m & t3 & t4 & s1 & -> & E1 & E2)|(e & X & _)]; [|discriminate]. apply quiet_max in E1. destruct E1 as (Q1 & ->).
  cbn [solved]. rewrite solved_app, Q1. cbn [app]. now apply failfast_loop_spec in E2.
Qed.
Lemma modes_unsolved c m s tr o s' : modes_changed c m s tr o s' -> solved tr = [].
Proof.
  intros (_ & F & _). clear - F. induction F as [|[x a] t H _ IH]; [reflexivity|]. unfold mode_call in H. cbn in *. destruct x; tauto || exact IH.
Qed.
(** an accepted movl *)
Lemma movl_checked c fuel x s tr s' : enableFailFast c = true -> exec (movl c fuel x) s tr (Done true) s' ->
  exists aq, In (GetEncoders, aq) tr /\ ok aq = true /\ chained (fill 0 (numJoints c) (vals aq)) (solved tr) /\ Forall (checked c) (solved tr).
Proof.
  intros FF. enough (X : forall o, exec (movl c fuel x) s tr o s' -> o = Done true ->
    exists aq, In (GetEncoders, aq) tr /\ ok aq = true /\ chained (fill 0 (numJoints c) (vals aq)) (solved tr) /\ Forall (checked c) (solved tr)) by (intros E; eapply X; eauto).
  intros o. apply (wp_sound _ _ (fun tr o s' => o = Done true -> exists aq, In (GetEncoders, aq) tr /\ ok aq = true /\ chained (fill 0 (numJoints c) (vals aq)) (solved tr) /\ Forall (checked c) (solved tr))).
  unfold movl. rewrite FF. go. intros aq. brk; go; [|discriminate]. intros ax. brk; go; [|discriminate].
  assert (K : forall xo s0 t, In (GetEncoders, aq) t -> solved t = [] -> wp (
      modify (set_trajectories []) ;;
      let* seconds := look duration in
      let* ts := need OutOfBounds (build (fun f t => Line f t seconds) (vals ax) xo (seq 0 (length x / 6))) in
      modify (set_trajectories ts) ;;
      let* fine := doFailFastChecks c fuel (fill 0 (numJoints c) (vals aq)) in
      if negb fine then Ret false else
      let* m := setControlModes c (if usePosdMovl c then VOCAB_CM_POSITION_DIRECT else VOCAB_CM_VELOCITY) in
      if negb m then Ret false else
      let* now := ask Now in
      modify (set_startTime (num now)) ;;
      modify (set_cmcSuccess true) ;;
      modify (setCurrentState VOCAB_CC_MOVL_CONTROLLING) ;;
      Ret true) s0 t (fun tr o s' => o = Done true -> exists aq, In (GetEncoders, aq) tr /\ ok aq = true /\ chained (fill 0 (numJoints c) (vals aq)) (solved tr) /\ Forall (checked c) (solved tr))).
  { intros xo s0 t I0 St. go. destruct build as [ts|]; go; [|discriminate]. rewrite wp_bind. apply exec_wp. intros t2 o2 s2 E.
    destruct o2 as [[]|]; cbn [negb]; go; try discriminate. apply failfast_spec in E. destruct E as (C1 & C2).
    apply wp_modes. intros tm b Mo. apply modes_unsolved in Mo. destruct b; cbn [negb]; go; [|discriminate]. intros now _. exists aq.
    rewrite !solved_app, St, Mo. cbn [app solved]. rewrite !app_nil_r. repeat split; auto. rewrite !in_app_iff. auto. }
  destruct Z.eqb; go; [intros r; destruct (ok r)|].
  - refine (K (vals r) s _ _ _); [cbn; auto|reflexivity].
  - discriminate.
  - refine (K x s _ _ _); [cbn; auto|reflexivity].
Qed.
