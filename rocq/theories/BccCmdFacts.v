(** Proofs about the single commands: torques and streamed commands. *)
From Coq Require Import Reals ZArith List Bool Lra Lia.
From Verif Require Import Kdl KdlFacts KdlRot KinRepSpec Vocab Bcc BccSpec BccLineSpec BccCmdSpec
  BccFacts BccAll BccFacts2 BccFacts3 BccFacts4 BccFacts6 BccFacts7 BccLineFacts BccLineFacts2.
Import ListNotations.
Open Scope R_scope.
Local Notation S := Datatypes.S.
Local Notation length := List.length.

Lemma filled_speeds n tr a : In (GetEncoderSpeeds, a) tr -> ok a = true -> speeds_read n tr (fill 0 n (vals a)).
Proof. intros I O. exists a. split; [exact I|]. split; [exact O|]. split; [apply fill_length|]. intros i Hi. now apply fill_nth. Qed.
Lemma filled_accelerations n tr a : In (GetEncoderAccelerations, a) tr -> ok a = true -> accelerations_read n tr (fill 0 n (vals a)).
Proof. intros I O. exists a. split; [exact I|]. split; [exact O|]. split; [apply fill_length|]. intros i Hi. now apply fill_nth. Qed.
Lemma negated f : opposite f (map Ropp f).
Proof.
  split; [apply map_length|]. intros j. rewrite <- Ropp_0 at 1. apply map_nth.
Qed.

Ltac qx := cbn [app]; repeat first [assumption | apply Forall_nil | (apply Forall_cons; [first [reflexivity | assumption]|])].
(** ** Torques *)
(** what is sent in a cycle of gcmp and forc *)
Definition torque_motion (c : cfg) (s : st) (tr : list event) : Prop :=
  forall x a, In (x, a) tr -> motion x = true -> exists aq av aw ad,
    In (GetEncoders, aq) tr /\ ok aq = true /\ In (GetEncoderSpeeds, av) tr /\ ok av = true /\ In (GetEncoderAccelerations, aw) tr /\ ok aw = true /\
    inside c (fill 0 (numJoints c) (vals aq)) /\ x = SetRefTorques (firstn (numJoints c) (vals ad)) /\ ok ad = true /\ (numJoints c <= length (vals ad))%nat /\
    (currentState s = VOCAB_CC_GCMP_CONTROLLING -> In (InvDyn (fill 0 (numJoints c) (vals aq)), ad) tr) /\
    (currentState s = VOCAB_CC_FORC_CONTROLLING ->
      In (InvDynForce (fill 0 (numJoints c) (vals aq)) (fill 0 (numJoints c) (vals av)) (fill 0 (numJoints c) (vals aw)) (fd s) (referenceFrame s), ad) tr).
Definition kept_fd (s s' : st) : Prop := kept s s' /\ fd s' = fd s.
Lemma torque_run c s tr o s' : currentState s = VOCAB_CC_GCMP_CONTROLLING \/ currentState s = VOCAB_CC_FORC_CONTROLLING ->
  exec (run c) s tr o s' -> kept_fd s s' /\ torque_motion c s tr.
Proof.
  intros CS. apply (wp_sound _ _ (fun tr _ s' => kept_fd s s' /\ torque_motion c s tr)).
  assert (N : forall t s0, kept_fd s s0 -> quiet t -> kept_fd s s0 /\ torque_motion c s t).
  { intros t s0 K Q. split; [auto|]. intros x a I M. rewrite (quiet_in _ _ _ Q I) in M. discriminate. }
  unfold run. go. replace (Z.eqb (currentState s) VOCAB_CC_NOT_CONTROLLING) with false by (destruct CS as [-> | ->]; reflexivity).
  rewrite wp_bind. unfold cycle_body, read_encoders. go.
  assert (KE : forall n, kept_fd s (set_encoderErrors n s)) by (intro; split; [right; repeat split|reflexivity]).
  assert (FIN : forall (b : bool) n t, (b = false -> quiet t) -> (b = true -> torque_motion c s t) -> wp (if b then Ret tt else modify (set_cmcSuccess false) ;; (let* _ := stopControl c in Ret tt)) (set_encoderErrors n s) t
    (fun t _ s' => kept_fd s s' /\ torque_motion c s t)).
  { intros [] n t Q M; go; [split; [apply KE|auto]|]. apply wp_stop. intros ts ST. go. apply N; [split; [left; reflexivity|reflexivity]|]. specialize (Q eq_refl). qt. }
  intros aq. brk; go; [|apply FIN; [intros; qt|intros X x a I M; exfalso; apply quiet_in in I; [congruence|qt]]].
  intros av. brk; go; [|apply FIN; [intros; qt|intros X x a I M; exfalso; apply quiet_in in I; [congruence|qt]]].
  intros aw. brk; go; [|apply FIN; [intros; qt|intros X x a I M; exfalso; apply quiet_in in I; [congruence|qt]]].
  destruct checkJointLimits as [lim|] eqn:LIM; go; [|apply N; [apply KE|qt]].
  destruct lim; cbn [negb]; go; [|refine (FIN false _ _ _ _); [intros; qt|discriminate]].
  apply limits_true in LIM.
  assert (H : forall d am ask_d, motion ask_d = false ->
    (currentState s = VOCAB_CC_GCMP_CONTROLLING -> ask_d = InvDyn (fill 0 (numJoints c) (vals aq))) ->
    (currentState s = VOCAB_CC_FORC_CONTROLLING -> ask_d = InvDynForce (fill 0 (numJoints c) (vals aq)) (fill 0 (numJoints c) (vals av)) (fill 0 (numJoints c) (vals aw)) (fd s) (referenceFrame s)) ->
    wp (let* a := ask ask_d in
        if negb (ok a) then Ret false else
        let* t := need OutOfBounds (first_n (numJoints c) (vals a)) in
        let* _ := ask (SetRefTorques t) in Ret true) (set_encoderErrors d s) (((([] ++ [(GetEncoders, aq)]) ++ [(GetEncoderSpeeds, av)]) ++ [(GetEncoderAccelerations, aw)]) ++ [(GetControlModes, am)])
      (fun t o s0 => match o with
        | Done a => wp (if a then Ret tt else modify (set_cmcSuccess false) ;; (let* _ := stopControl c in Ret tt)) s0 t (fun t _ s' => kept_fd s s' /\ torque_motion c s t)
        | Trouble e => kept_fd s s0 /\ torque_motion c s t end)).
  { intros d am x Mx G F. go. intros ad. brk; go; [|refine (FIN false _ _ _ _); [intros; qx|discriminate]].
    destruct first_n as [t|] eqn:FN; go; [|apply N; [apply KE|qx]].
    apply first_n_some in FN. destruct FN as (L & ->). intros ap. refine (FIN true _ _ _ _); [discriminate|]. intros _ y ay I M.
    cbn in I. destruct I as [I|[I|[I|[I|[I|[I|[]]]]]]]; injection I as <- <-; try discriminate; [congruence|].
    exists aq, av, aw, ad. cbn. repeat (split; [now auto 9|]). split; intros CS'; [rewrite <- (G CS')|rewrite <- (F CS')]; auto 9. }
  assert (FN : forall am, wp (Ret false) (set_encoderErrors 0 s) (((([] ++ [(GetEncoders, aq)]) ++ [(GetEncoderSpeeds, av)]) ++ [(GetEncoderAccelerations, aw)]) ++ [(GetControlModes, am)])
      (fun t o s0 => match o with
        | Done a => wp (if a then Ret tt else modify (set_cmcSuccess false) ;; (let* _ := stopControl c in Ret tt)) s0 t (fun t _ s' => kept_fd s s' /\ torque_motion c s t)
        | Trouble e => kept_fd s s0 /\ torque_motion c s t end)).
  { intros am. cbn [wp]. refine (FIN false _ _ _ _); [intros; qt|discriminate]. }
  destruct CS as [CS|CS]; rewrite CS; cbn [Z.eqb Pos.eqb]; unfold handleGcmp, handleForc; apply wp_check; intros a b A; destruct b; cbn [negb]; try apply FN.
  - refine (H _ _ (InvDyn _) _ _ _); auto; rewrite CS; discriminate.
  - refine (H _ _ (InvDynForce _ _ _ (fd s) (referenceFrame s)) _ _ _); auto; rewrite CS; discriminate.
Qed.

Lemma kept_fd_refl s : kept_fd s s. Proof. split; [apply kept_refl|reflexivity]. Qed.
Lemma kept_fd_trans a b d : kept_fd a b -> kept_fd b d -> kept_fd a d.
Proof. intros (A1 & A2) (B1 & B2). split; [eapply kept_trans; eauto|congruence]. Qed.
Lemma other_fd c o s tr b s' : lets_go_on o -> o <> OCycle -> exec (do_op c o) s tr (Done b) s' -> fd s' = fd s.
Proof.
  intros L NC E. assert (A : all (fun _ => True) (fun a b => fd b = fd a) (do_op c o)).
  { destruct o; cbn [do_op lets_go_on] in *; try contradiction; try congruence.
    all: first [apply all_stop; repeat split; now auto | apply all_wait; repeat split; now auto | apply all_tool; repeat split; now auto | apply all_set; repeat split; now auto
      | apply all_sets; repeat split; now auto | pall; apply all_stat; repeat split; now auto | pall; apply all_inv; repeat split; now auto
      | unfold act, getParameter, getParameters; pall]. }
  exact (proj1 (all_exec _ (fun a b => fd b = fd a) _ (fun s => eq_refl) (fun a b d H1 H2 => eq_trans H2 H1) A _ _ _ _ E)).
Qed.

Lemma torque_follow c s1 h : currentState s1 = VOCAB_CC_GCMP_CONTROLLING \/ currentState s1 = VOCAB_CC_FORC_CONTROLLING ->
  forall s s2, kept_fd s1 s -> history c s h s2 -> Forall (fun e => lets_go_on (fst (fst e))) h ->
  forall o t b x a, In (o, t, b) h -> In (x, a) t -> motion x = true -> o = OCycle /\ torque_motion c s1 t.
Proof.
  intros CS. induction h as [|e h IH]; intros s s2 K H L o t b x a I Ix Mx; [contradiction|].
  inversion H as [|? sm ? o1 tr1 b1 ? E H']; subst. inversion L as [|? ? L1 L2]; subst. cbn in L1.
  assert (C : o1 = OCycle \/ o1 <> OCycle) by (destruct o1; auto; right; discriminate).
  assert (G : (o1 <> OCycle -> quiet tr1) /\ kept_fd s1 sm /\ (o1 = OCycle -> torque_motion c s1 tr1 \/ tr1 = [])).
  { destruct C as [-> |C].
    - cbn [do_op] in E. apply exec_bind in E. destruct E as [(u & t1 & t2 & sx & -> & E1 & E2)|(e0 & X & _)]; [|discriminate].
      cbn in E2. destruct E2 as (-> & _ & ->). rewrite app_nil_r. split; [congruence|]. destruct K as (K & KF). destruct K as [K|K].
      + apply idle_run in E1; [|exact K]. destruct E1 as (-> & ->). split; [split; [left; exact K|exact KF]|auto].
      + pose proof K as (_ & _ & _ & _ & V5 & V6). destruct (torque_run c s t1 _ _ ltac:(rewrite V6; exact CS) E1) as (K1 & M1).
        split; [eapply kept_fd_trans; [split; [right; exact K|exact KF]|exact K1]|]. intros _. left. unfold torque_motion in *. rewrite V5, V6, KF in M1. exact M1.
    - pose proof (other_fd _ _ _ _ _ _ L1 C E) as F. apply other_kept in E; auto. destruct E as (K1 & Q). split; [auto|].
      split; [eapply kept_fd_trans; [exact K|split; auto]|contradiction]. }
  destruct G as (G1 & G2 & G3). destruct I as [I|I].
  - injection I as -> -> ->. destruct C as [C|C]; [|rewrite (quiet_in _ _ _ (G1 C) Ix) in Mx; discriminate].
    destruct (G3 C) as [M| ->]; [auto|contradiction].
  - eapply IH; eauto.
Qed.

Lemma gcmp_started c s tr s1 : exec (gcmp c) s tr (Done true) s1 -> s1 = setCurrentState VOCAB_CC_GCMP_CONTROLLING s.
Proof.
  refine (fun E => wp_sound (gcmp c) s (fun _ o s1 => o = Done true -> s1 = setCurrentState VOCAB_CC_GCMP_CONTROLLING s) tr (Done true) s1 _ E eq_refl).
  unfold gcmp. apply wp_modes. intros tm b _. destruct b; cbn [negb]; go; [reflexivity|discriminate].
Qed.
Lemma forc_started c f s tr s1 : exec (forc c f) s tr (Done true) s1 ->
  referenceFrame s <> TCP_FRAME /\ s1 = setCurrentState VOCAB_CC_FORC_CONTROLLING (set_fd (map Ropp f) s).
Proof.
  refine (fun E => wp_sound (forc c f) s (fun _ o s1 => o = Done true -> referenceFrame s <> TCP_FRAME /\ s1 = setCurrentState VOCAB_CC_FORC_CONTROLLING (set_fd (map Ropp f) s)) tr (Done true) s1 _ E eq_refl).
  unfold forc. go. destruct (Z.eqb_spec (referenceFrame s) TCP_FRAME) as [X|X]; go; [discriminate|].
  apply wp_modes. intros tm b _. destruct b; cbn [negb]; go; [auto|discriminate].
Qed.

Theorem gcmp_balances c s tr s1 h s2 balances :
  exec (gcmp c) s tr (Done true) s1 -> history c s1 h s2 -> Forall (fun e => lets_go_on (fst (fst e))) h ->
  Forall (dynamics (numJoints c) balances) (trace_of h) ->
  forall o t b x a, In (o, t, b) h -> In (x, a) t -> motion x = true ->
  exists q tau, o = OCycle /\ x = SetRefTorques tau /\ joints_read (numJoints c) t q /\ inside c q /\
    balances BASE_FRAME q (still (numJoints c)) (still (numJoints c)) [] tau.
Proof.
  intros E H L D o t b x a I Ix Mx. apply gcmp_started in E. subst s1.
  destruct (torque_follow c (setCurrentState VOCAB_CC_GCMP_CONTROLLING s) h (or_introl eq_refl) _ _ (kept_fd_refl _) H L _ _ _ _ _ I Ix Mx) as (-> & M).
  destruct (M _ _ Ix Mx) as (aq & av & aw & ad & A1 & A2 & A3 & A4 & A5 & A6 & A7 & A8 & A9 & A10 & A11 & _).
  pose proof (in_trace_F _ _ _ _ _ D I) as Dt. rewrite Forall_forall in Dt. specialize (A11 eq_refl). destruct (Dt _ A11 A9) as (LN & B).
  exists (fill 0 (numJoints c) (vals aq)), (vals ad). split; [auto|]. rewrite firstn_all2 in A8 by lia. split; [auto|]. split; [now apply filled|auto].
Qed.
Theorem forc_balances c f s tr s1 h s2 balances :
  exec (forc c f) s tr (Done true) s1 -> history c s1 h s2 -> Forall (fun e => lets_go_on (fst (fst e))) h ->
  Forall (dynamics (numJoints c) balances) (trace_of h) -> referenceFrame s <> TCP_FRAME /\
  forall o t b x a, In (o, t, b) h -> In (x, a) t -> motion x = true ->
  exists q v w e tau, o = OCycle /\ x = SetRefTorques tau /\ joints_read (numJoints c) t q /\ inside c q /\ speeds_read (numJoints c) t v /\
    accelerations_read (numJoints c) t w /\ opposite f e /\ balances (referenceFrame s) q v w e tau.
Proof.
  intros E H L D. apply forc_started in E. destruct E as (NF & ->). split; [exact NF|]. intros o t b x a I Ix Mx.
  destruct (torque_follow c (setCurrentState VOCAB_CC_FORC_CONTROLLING (set_fd (map Ropp f) s)) h (or_intror eq_refl) _ _ (kept_fd_refl _) H L _ _ _ _ _ I Ix Mx) as (-> & M).
  destruct (M _ _ Ix Mx) as (aq & av & aw & ad & A1 & A2 & A3 & A4 & A5 & A6 & A7 & A8 & A9 & A10 & _ & A11).
  pose proof (in_trace_F _ _ _ _ _ D I) as Dt. rewrite Forall_forall in Dt. specialize (A11 eq_refl). destruct (Dt _ A11 A9) as (LN & B).
  exists (fill 0 (numJoints c) (vals aq)), (fill 0 (numJoints c) (vals av)), (fill 0 (numJoints c) (vals aw)), (map Ropp f), (vals ad). split; [auto|]. rewrite firstn_all2 in A8 by lia. split; [auto|]. split; [now apply filled|].
  split; [auto|]. split; [now apply filled_speeds|]. split; [now apply filled_accelerations|]. split; [apply negated|exact B].
Qed.
