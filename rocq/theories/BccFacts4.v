From Coq Require Import Reals ZArith List Bool Lra Lia.
From Verif Require Import Kdl Vocab Bcc BccSpec BccFacts BccAll BccFacts2 BccFacts3.
Import ListNotations.
Open Scope R_scope.
Local Notation S := Datatypes.S.

Lemma motions_skip e t : motion (fst e) = false -> motions (e :: t) = motions t.
Proof. unfold motions. cbn. now intros ->. Qed.

Section Handlers.
Variable c : cfg.
Notation n := (numJoints c).

Lemma handled_fail m s t o : motions t = [] -> Forall (fast_event c) t -> o <> Done true -> handled c m s t o s.
Proof. intros M F H. split; [exact F|]. destruct o as [[]|]; auto; congruence. Qed.
Lemma handled_trouble m s s1 t e : motions t = [] -> Forall (fast_event c) t -> handled c m s t (Trouble e) s1.
Proof. intros M F. split; [exact F|exact M]. Qed.
Lemma handled_ok m s a t : all_in_mode n m a -> Forall (good_event c) t -> Forall (fast_event c) t ->
  (length (motions t) <= 1)%nat -> handled c m s ((GetControlModes, a) :: t) (Done true) s.
Proof. intros A G F L. split; [fa|]. split; [eauto|]. split; [fa|]. left. auto. Qed.
Lemma handled_end m s s' a t : all_in_mode n m a -> Forall (good_event c) t -> Forall (fast_event c) t ->
  ended ((GetControlModes, a) :: t) s s' -> handled c m s ((GetControlModes, a) :: t) (Done true) s'.
Proof. intros A G F E. split; [fa|]. split; [eauto|]. split; [fa|]. now right. Qed.

Ltac failed := apply handled_fail; [cbn; try reflexivity|fa|discriminate].

Lemma handleMovj_spec s : currentState s = VOCAB_CC_MOVJ_CONTROLLING -> wp (handleMovj c) s [] (handled c VOCAB_CM_POSITION s).
Proof.
  intros Hs. unfold handleMovj. apply wp_check. intros a b A. destruct b; cbn [negb]; go; [|failed].
  pose proof (proj1 A eq_refl) as A'. intros d. brk; go; [|failed].
  destruct (done d) eqn:D; go.
  2:{ cbn [app]. apply handled_ok; auto; fa. }
  destruct first_n as [v|] eqn:V; go.
  2:{ apply handled_trouble; fa. }
  intros r. cbn [app]. apply handled_end; auto; [fa..|]. split; [reflexivity|]. left. split; [reflexivity|]. split; [exact Hs|].
  exists d. cbn. auto.
Qed.
Lemma stopped_good s tr : stopped c s tr (Done true) (set_off s) -> motions tr = [] /\ Forall (good_event c) tr /\ Forall (fast_event c) tr.
Proof.
  intros H. split; [eapply stopped_quiet; eauto|]. destruct H as (_ & _ & t & a & -> & F). apply (mode_good c) in F. destruct F. split; fa.
Qed.
Lemma handleMovlVel_spec q s : currentState s = VOCAB_CC_MOVL_CONTROLLING -> wp (handleMovlVel c q) s [] (handled c VOCAB_CM_VELOCITY s).
Proof.
  intros Hs. unfold handleMovlVel. apply wp_check. intros a b A. destruct b; cbn [negb]; go; [|failed].
  pose proof (proj1 A eq_refl) as A'. intros now. apply wp_sample. intros tr r T E.
  pose proof (traj_quiet _ T) as TQ. destruct (traj_good c _ T) as (TG & TF).
  destruct r as [[dx dxd]|].
  - go. intros cur. brk; go.
    + apply velocity_command_spec.
      * rewrite !motions_app, TQ. reflexivity.
      * fa.
      * fa.
      * cbn. eauto.
    + apply handled_fail; [rewrite !motions_app, TQ; reflexivity|fa|discriminate].
  - destruct (E eq_refl) as (_ & t & b & B1 & B2 & B3). apply wp_stop. intros ts ST. destruct (stopped_good _ _ ST) as (S1 & S2 & S3).
    go. cbn [app]. apply handled_end; auto; [fa..|]. split.
    { rewrite !motions_skip, motions_app, TQ, S1 by reflexivity. reflexivity. }
    right. split; [reflexivity|]. split; [exact Hs|]. exists now, t, b. cbn. rewrite !in_app_iff. auto 12.
Qed.
Lemma handleMovlPosd_spec q s : currentState s = VOCAB_CC_MOVL_CONTROLLING -> wp (handleMovlPosd c q) s [] (handled c VOCAB_CM_POSITION_DIRECT s).
Proof.
  intros Hs. unfold handleMovlPosd. apply wp_check. intros a b A. destruct b; cbn [negb]; go; [|failed].
  pose proof (proj1 A eq_refl) as A'. intros now. apply wp_sample. intros tr r T E.
  pose proof (traj_quiet _ T) as TQ. destruct (traj_good c _ T) as (TG & TF).
  destruct r as [[dx dxd]|].
  - go. intros cur. brk; go.
    + destruct first_n; go.
      * intros ap. cbn [app]. apply handled_ok; auto; [fa..|]. rewrite !motions_skip, !motions_app, TQ by reflexivity. cbn. lia.
      * apply handled_trouble; [rewrite !motions_app, TQ; reflexivity|fa].
    + apply handled_fail; [rewrite !motions_app, TQ; reflexivity|fa|discriminate].
  - destruct (E eq_refl) as (_ & t & b & B1 & B2 & B3). apply wp_stop. intros ts ST. destruct (stopped_good _ _ ST) as (S1 & S2 & S3).
    go. cbn [app]. apply handled_end; auto; [fa..|]. split.
    { rewrite !motions_skip, motions_app, TQ, S1 by reflexivity. reflexivity. }
    right. split; [reflexivity|]. split; [exact Hs|]. exists now, t, b. cbn. rewrite !in_app_iff. auto 12.
Qed.
Lemma handleMovv_spec q s : wp (handleMovv c q) s [] (handled c VOCAB_CM_VELOCITY s).
Proof.
  unfold handleMovv. apply wp_check. intros a b A. destruct b; cbn [negb]; go; [|failed].
  pose proof (proj1 A eq_refl) as A'. intros now cur. brk; go; [|failed].
  apply wp_sample. intros tr r T E.
  pose proof (traj_quiet _ T) as TQ. destruct (traj_good c _ T) as (TG & TF).
  destruct r as [[dx dxd]|]; [|destruct (E eq_refl); discriminate].
  go. apply velocity_command_spec.
  - rewrite !motions_app, TQ. reflexivity.
  - fa.
  - fa.
  - cbn. eauto.
Qed.
Lemma handleGcmp_spec q s : wp (handleGcmp c q) s [] (handled c VOCAB_CM_TORQUE s).
Proof.
  unfold handleGcmp. apply wp_check. intros a b A. destruct b; cbn [negb]; go; [|failed].
  pose proof (proj1 A eq_refl) as A'. intros t. brk; go; [|failed]. destruct first_n; go.
  - intros ap. cbn [app]. apply handled_ok; auto; fa.
  - apply handled_trouble; fa.
Qed.
Lemma handleForc_spec q qd qdd s : wp (handleForc c q qd qdd) s [] (handled c VOCAB_CM_TORQUE s).
Proof.
  unfold handleForc. apply wp_check. intros a b A. destruct b; cbn [negb]; go; [|failed].
  pose proof (proj1 A eq_refl) as A'. intros t. brk; go; [|failed]. destruct first_n; go.
  - intros ap. cbn [app]. apply handled_ok; auto; fa.
  - apply handled_trouble; fa.
Qed.

(** ** The body of a cycle *)
Definition encoder_event (e : event) : Prop := asks_encoders (fst e) = true.
Definition silent (e : event) : Prop := asks_encoders (fst e) = false.
Definition unread (tr : list event) : Prop :=
  Forall encoder_event tr /\ exists e, In e tr /\ ok (snd e) = false.
Definition body_post (s : st) (tr : list event) (o : outcome bool) (s' : st) : Prop :=
  Forall (fast_event c) tr /\
  ((unread tr /\ s' = set_encoderErrors (encoderErrors s + 1) s /\ o = Done (Z.leb (encoderErrors s + 1) MAX_ENCODER_ERRORS)) \/
   (exists t3 tr2, tr = t3 ++ tr2 /\ length t3 = 3%nat /\ Forall encoder_event t3 /\ (forall e, In e t3 -> ok (snd e) = true) /\ Forall silent tr2 /\
    match o with
    | Trouble _ => motions tr = []
    | Done false => motions tr = [] /\ s' = set_encoderErrors 0 s
    | Done true =>
        In (currentState s) controlling_states /\
        (exists a tr', tr2 = (GetControlModes, a) :: tr' /\ all_in_mode n (mode_of c (currentState s)) a) /\
        Forall (good_event c) tr /\
        ((s' = set_encoderErrors 0 s /\ (length (motions tr) <= 1)%nat) \/ ended tr2 (set_encoderErrors 0 s) s')
    end)).

Lemma fill_inside q : inside c (fill 0 n q) <-> inside c q.
Proof. unfold inside, inside_at. split; intros H j Hj; specialize (H j Hj); rewrite fill_nth in * by assumption; exact H. Qed.

Lemma handled_body m s t3 : length t3 = 3%nat -> Forall encoder_event t3 -> (forall e, In e t3 -> ok (snd e) = true) ->
  Forall (good_event c) t3 -> In (currentState s) controlling_states -> m = mode_of c (currentState s) ->
  forall p, all (fun x => asks_encoders x = false) (fun _ _ => True) p -> wp p (set_encoderErrors 0 s) [] (handled c m (set_encoderErrors 0 s)) ->
  wp p (set_encoderErrors 0 s) t3 (body_post s).
Proof.
  intros L EV OK G St -> p PA W. apply exec_wp. intros tr o s' E. pose proof (wp_sound _ _ _ _ _ _ W E) as (F & H).
  assert (Q : motions t3 = []) by (unfold motions; clear - EV; induction EV as [|[x a] l H _ IH]; [reflexivity|cbn; rewrite IH; destruct x; cbn in *; discriminate || reflexivity]).
  assert (F3 : Forall (fast_event c) t3) by (eapply Forall_impl; [|exact EV]; intros [x a]; unfold encoder_event, fast_event; cbn; destruct x; try discriminate; auto).
  split; [fa|]. right. exists t3, tr. split; [reflexivity|]. split; [exact L|]. split; [exact EV|]. split; [exact OK|].
  split; [exact (proj2 (all_exec _ _ _ (fun _ => I) (fun _ _ _ _ _ => I) PA _ _ _ _ E))|]. rewrite motions_app, Q. cbn [app]. destruct o as [[]|]; auto. destruct H as (H1 & H2 & H3).
  split; [exact St|]. split; [exact H1|]. split; [fa|]. exact H3.
Qed.

Lemma cycle_body_spec s : currentState s <> VOCAB_CC_NOT_CONTROLLING -> wp (cycle_body c (currentState s)) s [] (body_post s).
Proof.
  intros NC. unfold cycle_body, read_encoders.
  assert (U : forall tr, unread tr -> wp (modify (fun s => set_encoderErrors (encoderErrors s + 1)%Z s) ;; let* k := look encoderErrors in
      Ret (negb (Z.ltb MAX_ENCODER_ERRORS k))) s tr (body_post s)).
  { intros tr (U1 & U2). go. split.
    - eapply Forall_impl; [|exact U1]. intros [x a]. unfold encoder_event, fast_event; cbn; destruct x; try discriminate; auto.
    - left. split; [split; assumption|]. split; [reflexivity|]. f_equal. cbn. rewrite Z.leb_antisym. reflexivity. }
  go. intros a1. brk; go.
  2:{ apply U. split; [repeat constructor|]. eexists. split; [now left|assumption]. }
  intros a2. brk; go.
  2:{ apply U. split; [repeat constructor|]. eexists. split; [right; now left|assumption]. }
  intros a3. brk; go.
  2:{ apply U. split; [repeat constructor|]. eexists. split; [right; right; now left|assumption]. }
  cbn [app]. set (t3 := [(GetEncoders, a1); (GetEncoderSpeeds, a2); (GetEncoderAccelerations, a3)]).
  assert (EV : Forall encoder_event t3) by repeat constructor.
  assert (OK : forall e, In e t3 -> ok (snd e) = true) by (cbn; intros e [<-|[<-|[<-|[]]]]; assumption).
  assert (F3 : Forall (fast_event c) t3) by repeat constructor.
  assert (XF : body_post s t3 (Done false) (set_encoderErrors 0 s)).
  { split; [exact F3|]. right. exists t3, []. rewrite app_nil_r. repeat split; auto. }
  destruct checkJointLimits as [[]|] eqn:L; go; cbn [negb]; go; [|exact XF|].
  2:{ split; [exact F3|]. right. exists t3, []. rewrite app_nil_r. repeat split; auto. }
  apply limits_true in L. apply (proj1 (fill_inside (vals a1))) in L.
  assert (G3 : Forall (good_event c) t3) by (unfold t3; fa).
  set (v := currentState s) in *.
  destruct (Z.eqb_spec v VOCAB_CC_MOVJ_CONTROLLING) as [Ev|Ev].
  { apply handled_body with (m := VOCAB_CM_POSITION); auto; fold v; rewrite ?Ev; [cbn; auto|reflexivity|apply all_handleMovj; repeat split; auto|].
    apply handleMovj_spec. exact Ev. }
  destruct (Z.eqb_spec v VOCAB_CC_MOVL_CONTROLLING) as [Ev2|Ev2].
  { destruct (usePosdMovl c) eqn:Up.
    - apply handled_body with (m := VOCAB_CM_POSITION_DIRECT); auto; fold v; rewrite ?Ev2; [cbn; auto|unfold mode_of; rewrite Up; reflexivity|apply all_handleMovlPosd; repeat split; auto|].
      apply handleMovlPosd_spec. exact Ev2.
    - apply handled_body with (m := VOCAB_CM_VELOCITY); auto; fold v; rewrite ?Ev2; [cbn; auto|unfold mode_of; rewrite Up; reflexivity|apply all_handleMovlVel; repeat split; auto|].
      apply handleMovlVel_spec. exact Ev2. }
  destruct (Z.eqb_spec v VOCAB_CC_MOVV_CONTROLLING) as [Ev3|Ev3].
  { apply handled_body with (m := VOCAB_CM_VELOCITY); auto; fold v; rewrite ?Ev3; [cbn; auto|reflexivity|apply all_handleMovv; repeat split; auto|]. apply handleMovv_spec. }
  destruct (Z.eqb_spec v VOCAB_CC_GCMP_CONTROLLING) as [Ev4|Ev4].
  { apply handled_body with (m := VOCAB_CM_TORQUE); auto; fold v; rewrite ?Ev4; [cbn; auto|reflexivity|apply all_handleGcmp; repeat split; auto|]. apply handleGcmp_spec. }
  destruct (Z.eqb_spec v VOCAB_CC_FORC_CONTROLLING) as [Ev5|Ev5].
  { apply handled_body with (m := VOCAB_CM_TORQUE); auto; fold v; rewrite ?Ev5; [cbn; auto 7|reflexivity|apply all_handleForc; repeat split; auto|]. apply handleForc_spec. }
  exact XF.
Qed.

(** ** A cycle *)
Definition aborted (s : st) (tr : list event) (s' : st) : Prop :=
  motions tr = [] /\ currentState s' = VOCAB_CC_NOT_CONTROLLING /\ cmcSuccess s' = false /\
  (exists n, s' = set_off (set_cmcSuccess false (set_encoderErrors n s))) /\
  exists t a, tr = t ++ [(Stop, a)].
Definition cycle_post (s : st) (tr : list event) (o : outcome Datatypes.unit) (s' : st) : Prop :=
  Forall (fast_event c) tr /\
  ((currentState s = VOCAB_CC_NOT_CONTROLLING /\ tr = [] /\ s' = s /\ o = Done tt) \/
   (currentState s <> VOCAB_CC_NOT_CONTROLLING /\
    ((* the encoders could not be read, once more *)
     (o = Done tt /\ unread tr /\ (encoderErrors s < MAX_ENCODER_ERRORS)%Z /\ s' = set_encoderErrors (encoderErrors s + 1) s) \/
     (* aborted *)
     (o = Done tt /\ aborted s tr s' /\
      (exists t1 t2, tr = t1 ++ t2 /\ unread t1 /\ (MAX_ENCODER_ERRORS <= encoderErrors s)%Z /\ Forall silent t2 /\ encoderErrors s' = (encoderErrors s + 1)%Z \/
       (length t1 = 3%nat /\ tr = t1 ++ t2 /\ Forall encoder_event t1 /\ (forall e, In e t1 -> ok (snd e) = true) /\ Forall silent t2 /\ encoderErrors s' = 0%Z))) \/
     (* in order *)
     (o = Done tt /\ In (currentState s) controlling_states /\
      (exists t3 a tr', tr = t3 ++ (GetControlModes, a) :: tr' /\ length t3 = 3%nat /\ Forall encoder_event t3 /\
         all_in_mode n (mode_of c (currentState s)) a /\
         ((s' = set_encoderErrors 0 s /\ (length (motions tr) <= 1)%nat) \/ ended ((GetControlModes, a) :: tr') (set_encoderErrors 0 s) s')) /\
      Forall (good_event c) tr) \/
     (exists e, o = Trouble e /\ motions tr = [])))).
Lemma run_spec s tr o s' : exec (run c) s tr o s' -> cycle_post s tr o s'.
Proof.
  apply wp_sound. unfold run. go. destruct (Z.eqb_spec (currentState s) VOCAB_CC_NOT_CONTROLLING) as [E|E]; go.
  { split; [constructor|]. left. auto. }
  rewrite wp_bind. apply wp_mono with (2 := cycle_body_spec s E). intros t o1 s1 (F & H).
  assert (St : forall s2 k, s2 = set_encoderErrors k s -> motions t = [] ->
    (exists t1 t2, t = t1 ++ t2 /\ unread t1 /\ t2 = [] /\ (MAX_ENCODER_ERRORS <= encoderErrors s)%Z /\ k = (encoderErrors s + 1)%Z \/
       (length t1 = 3%nat /\ t = t1 ++ t2 /\ Forall encoder_event t1 /\ (forall e, In e t1 -> ok (snd e) = true) /\ Forall silent t2 /\ k = 0%Z)) ->
    wp (modify (set_cmcSuccess false) ;; let* _ := stopControl c in Ret tt) s2 t (cycle_post s)).
  { intros s2 k -> M W. go. apply wp_stop. intros ts ST. destruct (stopped_good _ _ ST) as (S1 & S2 & S3). go.
    split; [fa|]. right. split; [exact E|]. right. left. split; [reflexivity|].
    destruct ST as (_ & _ & t' & a & -> & FM). split.
    - split; [rewrite motions_app, M, S1; reflexivity|]. split; [reflexivity|]. split; [reflexivity|]. split; [eauto|].
      exists (t ++ t'), a. now rewrite app_assoc.
    - assert (SM : Forall silent t') by (eapply Forall_impl; [|exact FM]; intros [x b]; unfold mode_call, silent; cbn; destruct x; tauto).
      destruct W as (t1 & t2 & [(-> & U & -> & K & ->)|(L & -> & EV & OKs & Si & ->)]).
      + exists t1, (t' ++ [(Stop, a)]). left. rewrite app_nil_r. repeat split; try apply U; auto. fa. reflexivity.
      + exists t1, (t2 ++ t' ++ [(Stop, a)]). right. rewrite <- app_assoc. repeat split; auto. fa. reflexivity. }
  destruct H as [(U & -> & ->)|(t3 & tr2 & -> & L & EV & OK & Si & H)].
  - destruct (Z.leb_spec (encoderErrors s + 1) MAX_ENCODER_ERRORS) as [K|K]; go.
    + split; [exact F|]. right. split; [exact E|]. left. repeat split; try apply U. lia.
    + eapply St; [reflexivity| |].
      * destruct U as (U & _). clear - U. unfold motions. induction U as [|[x a] l H _ IH]; [reflexivity|]. cbn. rewrite IH.
        destruct x; cbn in *; reflexivity || discriminate.
      * exists t, []. left. rewrite app_nil_r. repeat split; try apply U; lia.
  - destruct o1 as [[]|e].
    + destruct H as (H1 & (a & tr' & -> & A) & G & H2). go. split; [exact F|]. right. split; [exact E|]. right. right. left.
      split; [reflexivity|]. split; [exact H1|]. split; [|exact G]. exists t3, a, tr'. repeat split; try apply A; auto.
    + destruct H as (M & ->). eapply St; [reflexivity|exact M|]. exists t3, tr2. right. auto 8.
    + split; [exact F|]. right. split; [exact E|]. right. right. right. exists e. auto.
Qed.
End Handlers.
