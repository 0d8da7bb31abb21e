From Coq Require Import Reals ZArith List Bool Lra Lia.
From Verif Require Import Kdl Vocab Bcc BccSpec BccSpec2 BccFacts BccAll BccFacts2 BccFacts3 BccFacts4 BccFacts5 BccFacts6.
Import ListNotations.
Open Scope R_scope.

Definition fits (m : Z) (x : call) : Prop := match x with SetControlModes _ m' => m' = m | _ => True end.
Lemma fits_only m tr : Forall (fun e => fits m (fst e)) tr -> only_mode m tr.
Proof. intros F ids m' a H. rewrite Forall_forall in F. exact (F _ H). Qed.
Lemma last_app is t x a : first_answer is (rev (t ++ [(x, a)])) = if is x then Some a else first_answer is (rev t).
Proof. rewrite rev_app_distr. cbn. unfold first_answer. cbn. now destruct (is x). Qed.
Definition moded (c : cfg) (m v : Z) (tr : list event) (o : outcome bool) (s' : st) : Prop :=
  Forall (fun e => fits m (fst e)) tr /\ (o = Done true -> currentState s' = v /\ ends_in_mode (numJoints c) m tr).
Lemma moded_no c m v tr o s' : Forall (fun e => fits m (fst e)) tr -> o <> Done true -> moded c m v tr o s'.
Proof. intros F N. split; [exact F|contradiction]. Qed.
Lemma mode_fits m tr : Forall (mode_call m) tr -> Forall (fun e => fits m (fst e)) tr.
Proof. apply Forall_impl. intros e. unfold mode_call, fits. destruct (fst e); auto. Qed.
Lemma changed_fits c m s tm o s' : modes_changed c m s tm o s' -> Forall (fun e => fits m (fst e)) tm.
Proof. intros (_ & F & _). now apply mode_fits. Qed.
Lemma changed_ends c m s tm s' t : modes_changed c m s tm (Done true) s' -> ends_in_mode (numJoints c) m (t ++ tm).
Proof.
  intros (_ & _ & b & E & H). injection E as <-. destruct (H eq_refl) as (t1 & a & -> & A). exists a. split; [|exact A].
  rewrite app_assoc, last_app. reflexivity.
Qed.
Lemma ends_more n m t x a : ends_in_mode n m t -> asks_modes x = false -> ends_in_mode n m (t ++ [(x, a)]).
Proof. intros (b & E & A) N. exists b. split; [|exact A]. rewrite last_app, N. exact E. Qed.
Ltac fit := match goal with
  | H : Forall ?P ?l |- Forall ?P ?l => exact H
  | |- Forall _ (_ ++ _) => apply Forall_app; split; fit
  | |- Forall _ (_ :: _) => constructor; [first [exact I | reflexivity]|fit]
  | |- Forall _ [] => constructor
  end.
Ltac mno := apply moded_no; [fit|discriminate].

Lemma movl_moded c fuel x s : wp (movl c fuel x) s [] (moded c (mode_of c VOCAB_CC_MOVL_CONTROLLING) VOCAB_CC_MOVL_CONTROLLING).
Proof.
  assert (M0 : mode_of c VOCAB_CC_MOVL_CONTROLLING = if usePosdMovl c then VOCAB_CM_POSITION_DIRECT else VOCAB_CM_VELOCITY) by reflexivity.
  rewrite M0. set (m := if usePosdMovl c then _ else _).
  unfold movl. go. intros a. brk; go; [|mno]. intros y. brk; go; [|mno].
  assert (K : forall obj t, Forall (fun e => fits m (fst e)) t -> wp (match obj with
    | None => Ret false
    | Some xd_obj =>
      modify (set_trajectories []) ;;
      let* seconds := look duration in
      let* ts := need OutOfBounds (build (fun f t => Line f t seconds) (vals y) xd_obj (seq 0 (length x / 6))) in
      modify (set_trajectories ts) ;;
      let* fine := (if enableFailFast c then doFailFastChecks c fuel (fill 0 (numJoints c) (vals a)) else Ret true) in
      if negb fine then Ret false else
      let* m := setControlModes c (if usePosdMovl c then VOCAB_CM_POSITION_DIRECT else VOCAB_CM_VELOCITY) in
      if negb m then Ret false else
      let* now := ask Now in
      modify (set_startTime (num now)) ;;
      modify (set_cmcSuccess true) ;;
      modify (setCurrentState VOCAB_CC_MOVL_CONTROLLING) ;;
      Ret true end) s t (moded c m VOCAB_CC_MOVL_CONTROLLING)).
  { intros [obj|] t F; go; [|mno]. destruct build as [ts|]; go; [|mno].
    rewrite wp_bind. apply exec_wp. intros tr2 o2 s2 E.
    assert (F2 : Forall (fun e => fits m (fst e)) tr2).
    { destruct enableFailFast; [|cbn in E; destruct E as (-> & _); constructor].
      apply (all_calls (fits m)) in E; [exact E|]. apply all_failfast; repeat split; auto; intros; exact I. }
    clear E. destruct o2 as [[]|]; cbn [negb]; go; try mno.
    apply wp_modes. intros tm b Hm. pose proof (changed_fits _ _ _ _ _ _ Hm) as F3. fold m in F3, Hm. destruct b; cbn [negb]; go; [|mno]. intros now.
    split; [fit|]. intros _. split; [reflexivity|]. apply ends_more; [|reflexivity]. eapply changed_ends; eauto. }
  destruct (Z.eqb (referenceFrame s) TCP_FRAME); go; [intros r; destruct (ok r)|]; [apply (K (Some (vals r)))|apply (K None)|apply (K (Some x))]; fit.
Qed.
Lemma movv_moded c x s : wp (movv c x) s [] (moded c (mode_of c VOCAB_CC_MOVV_CONTROLLING) VOCAB_CC_MOVV_CONTROLLING).
Proof.
  unfold movv. go. intros a. brk; go; [|mno]. intros y. brk; go; [|mno].
  destruct build as [ts|]; go; [|mno]. apply wp_modes. intros tm b Hm. pose proof (changed_fits _ _ _ _ _ _ Hm) as F3. change VOCAB_CM_VELOCITY with (mode_of c VOCAB_CC_MOVV_CONTROLLING) in F3, Hm.
  destruct b; cbn [negb]; go; [|mno]. intros now.
  split; [fit|]. intros _. split; [reflexivity|]. apply ends_more; [|reflexivity]. eapply changed_ends; eauto.
Qed.
Lemma gcmp_moded c s : wp (gcmp c) s [] (moded c (mode_of c VOCAB_CC_GCMP_CONTROLLING) VOCAB_CC_GCMP_CONTROLLING).
Proof.
  unfold gcmp. apply wp_modes. intros tm b Hm. pose proof (changed_fits _ _ _ _ _ _ Hm) as F3. change VOCAB_CM_TORQUE with (mode_of c VOCAB_CC_GCMP_CONTROLLING) in F3, Hm.
  destruct b; cbn [negb]; go; [|mno]. split; [fit|]. intros _. split; [reflexivity|]. eapply changed_ends; eauto.
Qed.
Lemma forc_moded c f s : wp (forc c f) s [] (moded c (mode_of c VOCAB_CC_FORC_CONTROLLING) VOCAB_CC_FORC_CONTROLLING).
Proof.
  unfold forc. go. destruct Z.eqb; go; [mno|]. apply wp_modes. intros tm b Hm. pose proof (changed_fits _ _ _ _ _ _ Hm) as F3. change VOCAB_CM_TORQUE with (mode_of c VOCAB_CC_FORC_CONTROLLING) in F3, Hm.
  destruct b; cbn [negb]; go; [|mno]. split; [fit|]. intros _. split; [reflexivity|]. eapply changed_ends; eauto.
Qed.
Definition moded_j (c : cfg) (s : st) (tr : list event) (o : outcome bool) (s' : st) : Prop :=
  Forall (fun e => fits VOCAB_CM_POSITION (fst e)) tr /\
  (o = Done true -> (currentState s' = VOCAB_CC_MOVJ_CONTROLLING /\ ends_in_mode (numJoints c) VOCAB_CM_POSITION tr) \/ (s' = s /\ motions tr = [])).
Lemma movj_moded c x s tr o s' : exec (movj c x) s tr o s' -> moded_j c s tr o s'.
Proof.
  intros E. apply movj_runs in E. destruct E as [|aq ai|aq ai|aq ai|aq ai ag|aq ai ag w av T tr o s1 E1 E2 E3 E4 E5 E6].
  - split; [fit|discriminate].
  - split; [fit|discriminate].
  - split; [fit|discriminate].
  - split; [fit|]. intros _. right. auto.
  - split; [fit|discriminate].
  - remember (stored c s ag) as s0 eqn:S0. destruct E6 as [ai av s2|ai av tm s2 ? M|ai av tm s2 ? M|ai av tm ap s2 ? M L].
    + split; [fit|discriminate].
    + apply changed_fits in M. split; [fit|discriminate].
    + apply changed_fits in M. split; [fit|discriminate].
    + pose proof (changed_fits _ _ _ _ _ _ M) as F. split; [fit|]. intros Hp. injection Hp as Hp. rewrite Hp. left. split; [reflexivity|].
      rewrite app_assoc. apply ends_more; [|reflexivity]. eapply changed_ends; eauto.
Qed.
Lemma relj_moded c x s tr o s' : exec (relj c x) s tr o s' -> moded_j c s tr o s'.
Proof.
  unfold relj. cbn [bind look exec]. destruct Z.eqb; [apply movj_moded|]. intros E. apply exec_bind in E.
  assert (A : forall t1 r s2, exec (stat c false) s t1 r s2 -> s2 = s /\ Forall (fun e => fits VOCAB_CM_POSITION (fst e)) t1 /\ motions t1 = []).
  { intros t1 r s2 E1. split; [|split].
    - apply (all_same (stat c false)) in E1; [exact E1|]. apply all_stat; repeat split; auto.
    - apply (all_calls (fits VOCAB_CM_POSITION)) in E1; [exact E1|]. apply all_stat; repeat split; auto; intros; exact I.
    - apply (all_calls (fun x => motion x = false)) in E1; [|apply all_stat; repeat split; auto].
      clear - E1. unfold motions. induction E1 as [|e t H _ IH]; [reflexivity|]. cbn. now rewrite H. }
  destruct E as [(r & t1 & t2 & s2 & -> & E1 & E2)|(e & -> & E1)]; destruct (A _ _ _ E1) as (-> & F & M).
  2:{ split; [exact F|discriminate]. }
  destruct r as [[[y v] t]|].
  - destruct (add_to y x) as [z|]; cbn [bind need] in E2.
    + apply movj_moded in E2. destruct E2 as (F2 & H). split; [fit|]. intros Ho. destruct (H Ho) as [(H1 & a & H2 & H3)|(H1 & H2)].
      * left. split; [exact H1|]. exists a. split; [|exact H3]. clear - H2. rewrite rev_app_distr. unfold first_answer in *.
        revert H2. generalize (rev t1). induction (rev t2) as [|e l IH]; cbn; intros l'; [discriminate|]. destruct asks_modes; auto.
      * right. split; [exact H1|]. now rewrite motions_app, M, H2.
    + cbn in E2. destruct E2 as (-> & -> & _). split; [fit|discriminate].
  - cbn in E2. destruct E2 as (-> & -> & _). split; [fit|discriminate].
Qed.
Theorem modes_started c o s tr b s' v : started_by o = Some v -> exec (do_op c o) s tr (Done b) s' ->
  only_mode (mode_of c v) tr /\
  (b = true -> (currentState s' = v /\ ends_in_mode (numJoints c) (mode_of c v) tr) \/ (v = VOCAB_CC_MOVJ_CONTROLLING /\ s' = s /\ motions tr = [])).
Proof.
  intros Ho E.
  assert (K : forall m v', moded c m v' tr (Done b) s' -> v = v' -> mode_of c v = m -> only_mode (mode_of c v) tr /\
    (b = true -> (currentState s' = v /\ ends_in_mode (numJoints c) (mode_of c v) tr) \/ (v = VOCAB_CC_MOVJ_CONTROLLING /\ s' = s /\ motions tr = []))).
  { intros m v' (F & G) <- ->. split; [now apply fits_only|]. intros ->. left. auto. }
  assert (J : moded_j c s tr (Done b) s' -> v = VOCAB_CC_MOVJ_CONTROLLING -> only_mode (mode_of c v) tr /\
    (b = true -> (currentState s' = v /\ ends_in_mode (numJoints c) (mode_of c v) tr) \/ (v = VOCAB_CC_MOVJ_CONTROLLING /\ s' = s /\ motions tr = []))).
  { intros (F & G) ->. split; [now apply fits_only|]. intros ->. destruct (G eq_refl) as [H|H]; auto. }
  destruct o; cbn [started_by] in Ho; try discriminate; apply (f_equal (fun o => match o with Some z => z | None => v end)) in Ho; cbn [do_op] in E.
  - apply J; [eapply movj_moded; exact E|now symmetry].
  - apply J; [eapply relj_moded; exact E|now symmetry].
  - apply (K _ _ (wp_sound _ _ _ _ _ _ (movl_moded c fuel xd s) E)); [now symmetry|now subst v].
  - apply (K _ _ (wp_sound _ _ _ _ _ _ (movv_moded c xdotd s) E)); [now symmetry|now subst v].
  - apply (K _ _ (wp_sound _ _ _ _ _ _ (gcmp_moded c s) E)); [now symmetry|now subst v].
  - apply (K _ _ (wp_sound _ _ _ _ _ _ (forc_moded c f s) E)); [now symmetry|now subst v].
Qed.
Theorem modes_preset c v s tr b s' : exec (setParameter c VOCAB_CC_CONFIG_STREAMING_CMD (IZR v)) s tr (Done b) s' ->
  (forall m, streaming_mode v = Some m -> only_mode m tr) /\
  (b = true -> streamingCommand s' = v /\ exists m, streaming_mode v = Some m /\ ends_in_mode (numJoints c) m tr).
Proof.
  intros E. set (Q := fun (tr : list event) (o : outcome bool) (s' : st) => (forall m, streaming_mode v = Some m -> Forall (fun e => fits m (fst e)) tr) /\
    (o = Done true -> streamingCommand s' = v /\ exists m, streaming_mode v = Some m /\ ends_in_mode (numJoints c) m tr)).
  assert (X : Q tr (Done b) s').
  { revert E. apply wp_sound. unfold setParameter. go.
    assert (N : forall s' o, o <> Done true -> Q [] o s') by (intros; split; [constructor|contradiction]).
    destruct (Z.eqb (currentState s) VOCAB_CC_NOT_CONTROLLING); cbn [negb]; go; [|now apply N].
    change (Z.eqb VOCAB_CC_CONFIG_STREAMING_CMD VOCAB_CC_CONFIG_GAIN) with false. change (Z.eqb VOCAB_CC_CONFIG_STREAMING_CMD VOCAB_CC_CONFIG_TRAJ_DURATION) with false.
    change (Z.eqb VOCAB_CC_CONFIG_STREAMING_CMD VOCAB_CC_CONFIG_CMC_PERIOD) with false. change (Z.eqb VOCAB_CC_CONFIG_STREAMING_CMD VOCAB_CC_CONFIG_WAIT_PERIOD) with false.
    change (Z.eqb VOCAB_CC_CONFIG_STREAMING_CMD VOCAB_CC_CONFIG_FRAME) with false. rewrite Z.eqb_refl. cbv iota.
    destruct (to_int (IZR v)) as [z|] eqn:T; go; [|now apply N]. apply to_int_IZR in T. subst z.
    unfold presetStreamingCommand. rewrite wp_bind. go. set (s2 := setCurrentState _ _).
    assert (M : forall m, streaming_mode v = Some m -> wp (setControlModes c m) s2 [] (fun t' o s' => match o with
       | Done a => wp (if negb a then Ret false else modify (set_streaming v) ;; Ret true) s' t' Q
       | Trouble e => Q t' (Trouble e) s' end)).
    { intros m Hm. apply exec_wp. intros tr' o' s1 E. apply set_modes in E. pose proof (changed_fits _ _ _ _ _ _ E) as F. pose proof E as (-> & _ & b' & -> & _).
      destruct b'; cbn [negb]; go; (split; [intros m' H'; rewrite Hm in H'; injection H' as <-; exact F|]); [|discriminate].
      intros _. split; [reflexivity|]. exists m. split; [exact Hm|]. eapply changed_ends; eauto. }
    unfold streaming_mode in M. destruct (Z.eqb v VOCAB_CC_POSE); cbn [orb]; [now apply M|].
    destruct (Z.eqb v VOCAB_CC_MOVI); [now apply M|]. destruct (Z.eqb v VOCAB_CC_TWIST); [now apply M|]. destruct (Z.eqb v VOCAB_CC_WRENCH); [now apply M|].
    go. apply N. discriminate. }
  destruct X as (X1 & X2). split; [intros m Hm; now apply fits_only, X1|]. intros ->. now apply X2.
Qed.
