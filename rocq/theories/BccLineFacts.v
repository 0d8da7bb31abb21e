(** Proofs about movements along a line: what the controller asks and sends. *)
From Coq Require Import Reals ZArith List Bool Lra Lia.
From Verif Require Import Kdl KdlFacts KdlRot KdlRotFacts KinRepSpec AsibotSpec KdlTraj LineSpec LineFacts2 Vocab Bcc BccSpec BccKdl BccLineSpec
  BccFacts BccAll BccFacts2 BccFacts3 BccFacts4 BccFacts6 BccFacts7.
Import ListNotations.
Open Scope R_scope.
Local Notation S := Datatypes.S.
Local Notation length := List.length.

Notation quiet tr := (Forall (fun e : event => motion (fst e) = false) tr).

(** ** Sampling *)
Definition pos_asked (tr : list event) (time : R) (t : traj) (y : list R) : Prop := exists a, In (TrajPos t time, a) tr /\ vals a = y.
Definition vel_asked (tr : list event) (time : R) (t : traj) (y : list R) : Prop := exists a, In (TrajVel t time, a) tr /\ vals a = y.
Definition in_time (tr : list event) (time : R) (t : traj) : Prop := exists d, In (TrajDuration t, d) tr /\ time <= num d.
Definition sampled (ts : list traj) (time : R) (b w : bool) (x xd : list R) (tr : list event) (o : outcome (option (list R * list R))) : Prop :=
  match o with
  | Done (Some (x', xd')) => exists ys vs, x' = x ++ concat ys /\ Forall2 (pos_asked tr time) ts ys /\
      (w = true -> xd' = xd ++ concat vs /\ Forall2 (vel_asked tr time) ts vs) /\ (b = true -> Forall (in_time tr time) ts)
  | _ => True
  end.
Lemma F2_impl {A B} (P Q : A -> B -> Prop) l m : (forall a b, P a b -> Q a b) -> Forall2 P l m -> Forall2 Q l m.
Proof. intros H F. induction F; constructor; auto. Qed.
Lemma sample_asks ts time b w : forall x xd s tr o s', exec (sample ts time b w x xd) s tr o s' -> s' = s /\ quiet tr /\ sampled ts time b w x xd tr o.
Proof.
  induction ts as [|t ts IH]; intros x xd s tr o s' E; cbn [sample] in E.
  - cbn in E. destruct E as (-> & -> & ->). split; [reflexivity|]. split; [constructor|]. exists [], []. cbn. rewrite !app_nil_r. repeat split; auto.
  - assert (X : forall s tr o s', exec (let* p := ask (TrajPos t time) in
      if w then let* v := ask (TrajVel t time) in sample ts time b w (x ++ vals p) (xd ++ vals v)
      else sample ts time b w (x ++ vals p) xd) s tr o s' -> s' = s /\ quiet tr /\
      match o with
      | Done (Some (x', xd')) => exists ys vs, x' = x ++ concat ys /\ Forall2 (pos_asked tr time) (t :: ts) ys /\
         (w = true -> xd' = xd ++ concat vs /\ Forall2 (vel_asked tr time) (t :: ts) vs) /\ (b = true -> Forall (in_time tr time) ts)
      | _ => True end).
    { clear s tr o s' E. intros s tr o s' E. cbn [bind ask exec] in E. destruct E as (a & tr' & -> & E).
      assert (W : forall e l y, pos_asked l time e y -> forall n, pos_asked (n :: l) time e y) by (intros e l y (a1 & A1 & A2) n; exists a1; cbn; auto).
      assert (W' : forall e l y, vel_asked l time e y -> forall n, vel_asked (n :: l) time e y) by (intros e l y (a1 & A1 & A2) n; exists a1; cbn; auto).
      assert (W'' : forall e l, in_time l time e -> forall n, in_time (n :: l) time e) by (intros e l (a1 & A1 & A2) n; exists a1; cbn; auto).
      destruct w.
      - cbn [bind ask exec] in E. destruct E as (a' & tr'' & -> & E). apply IH in E. destruct E as (-> & Q & G). split; [reflexivity|].
        split; [constructor; [reflexivity|constructor; [reflexivity|exact Q]]|].
        destruct o as [[[x' xd']|]|]; auto. destruct G as (ys & vs & -> & F1 & F2 & F3). destruct (F2 eq_refl) as (-> & F4).
        exists (vals a :: ys), (vals a' :: vs). cbn [concat]. rewrite !app_assoc. split; [reflexivity|]. split.
        { constructor; [exists a; cbn; auto|]. eapply F2_impl; [|exact F1]. intros; apply W, W; auto. } split.
        { intros _. split; [reflexivity|]. constructor; [exists a'; cbn; auto|]. eapply F2_impl; [|exact F4]. intros; apply W', W'; auto. }
        intros B. specialize (F3 B). eapply Forall_impl; [|exact F3]. intros; apply W'', W''; auto.
      - apply IH in E. destruct E as (-> & Q & G). split; [reflexivity|]. split; [constructor; [reflexivity|exact Q]|].
        destruct o as [[[x' xd']|]|]; auto. destruct G as (ys & vs & -> & F1 & F2 & F3).
        exists (vals a :: ys), []. cbn [concat]. rewrite !app_assoc. split; [reflexivity|]. split.
        { constructor; [exists a; cbn; auto|]. eapply F2_impl; [|exact F1]. intros; apply W; auto. } split; [discriminate|].
        intros B. specialize (F3 B). eapply Forall_impl; [|exact F3]. intros; apply W''; auto. }
    destruct b.
    + cbn [bind ask exec] in E. destruct E as (d & tr' & -> & E). destruct (Rltb_spec (num d) time) as [L|L].
      * cbn in E. destruct E as (-> & -> & ->). split; [reflexivity|]. split; [constructor; auto|exact I].
      * apply X in E. destruct E as (-> & Q & G). split; [reflexivity|]. split; [constructor; auto|].
        destruct o as [[[x' xd']|]|]; auto. destruct G as (ys & vs & -> & F1 & F2 & F3). exists ys, vs. split; [reflexivity|]. split.
        { eapply F2_impl; [|exact F1]. intros e y (a1 & A1 & A2). exists a1. cbn. auto. } split.
        { intros Hw. destruct (F2 Hw) as (-> & F4). split; [reflexivity|]. eapply F2_impl; [|exact F4]. intros e y (a1 & A1 & A2). exists a1. cbn. auto. }
        intros _. constructor; [exists d; cbn; split; [auto|lra]|]. eapply Forall_impl; [|exact (F3 eq_refl)]. intros e (a1 & A1 & A2). exists a1. cbn. auto.
    + cbn [bind] in E. apply X in E. destruct E as (-> & Q & G). split; [reflexivity|]. split; [exact Q|].
      destruct o as [[[x' xd']|]|]; auto. destruct G as (ys & vs & -> & F1 & F2 & F3). exists ys, vs. split; [reflexivity|]. split; [exact F1|].
      split; [exact F2|discriminate].
Qed.

(** ** What is sent in a cycle *)
(** the joint positions [q'] were found, from the joint positions [q], for the samples at the time that the clock told *)
Definition sent (n : nat) (ts : list traj) (start : R) (q : list R) (tr : list event) (q' : list R) : Prop :=
  exists an ys ai, In (Now, an) tr /\ Forall2 (pos_asked tr (num an - start)) ts ys /\ Forall (in_time tr (num an - start)) ts /\
    In (InvKin (concat ys) q BASE_FRAME, ai) tr /\ ok ai = true /\ (n <= length (vals ai))%nat /\ q' = firstn n (vals ai).
Definition posd_motion (n : nat) (ts : list traj) (start : R) (q : list R) (tr : list event) : Prop :=
  forall x a, In (x, a) tr -> motion x = true -> exists q', x = SetPositions q' /\ sent n ts start q tr q'.
(** what matters about the variables *)
Definition same_view (s s0 : st) : Prop :=
  trajectories s0 = trajectories s /\ movementStartTime s0 = movementStartTime s /\ gain s0 = gain s /\ cmcPeriodMs s0 = cmcPeriodMs s /\
  referenceFrame s0 = referenceFrame s /\ currentState s0 = currentState s.
Lemma same_view_refl s : same_view s s. Proof. repeat split. Qed.
(** still going on, or stopped *)
Definition kept (s s' : st) : Prop := currentState s' = VOCAB_CC_NOT_CONTROLLING \/ same_view s s'.
Lemma kept_refl s : kept s s. Proof. right. apply same_view_refl. Qed.
Lemma kept_trans a b d : kept a b -> kept b d -> kept a d.
Proof. unfold kept, same_view. intros [A|(A1 & A2 & A3 & A4 & A5 & A6)] [B|(B1 & B2 & B3 & B4 & B5 & B6)]; auto; [left|right; repeat split]; congruence. Qed.
Lemma kept_off s : kept s (set_off s). Proof. left. reflexivity. Qed.

Lemma mode_quiet m t : Forall (mode_call m) t -> quiet t.
Proof. intros F. eapply Forall_impl; [|exact F]. intros [x a] H. unfold mode_call in H. cbn in *. destruct x; try reflexivity; tauto. Qed.
Lemma stopped_all c s tr o s' : stopped c s tr o s' -> quiet tr.
Proof. intros (_ & _ & t & a & -> & F). apply Forall_app. split; [eapply mode_quiet; eauto|constructor; auto]. Qed.
Lemma quiet_in tr x a : quiet tr -> In (x, a) tr -> motion x = false.
Proof. intros F I. rewrite Forall_forall in F. exact (F _ I). Qed.
Lemma quiet_app t u : quiet t -> quiet u -> quiet (t ++ u).
Proof. intros. apply Forall_app. auto. Qed.

Ltac qt := cbn [app]; repeat first [assumption | apply quiet_app | (constructor; [reflexivity|]) | apply Forall_nil | (eapply stopped_all; eassumption)].

Lemma posd_cycle c q s : wp (handleMovlPosd c q) s [] (fun tr o s' => kept s s' /\ posd_motion (numJoints c) (trajectories s) (movementStartTime s) q tr).
Proof.
  assert (N : forall s0 tr s', kept s0 s' -> quiet tr ->
    kept s0 s' /\ posd_motion (numJoints c) (trajectories s0) (movementStartTime s0) q tr).
  { intros s0 tr s' K Q. split; [auto|]. intros x a I M. rewrite (quiet_in _ _ _ Q I) in M. discriminate. }
  assert (K0 : quiet (@nil event)) by constructor.
  unfold handleMovlPosd. apply wp_check. intros a b A. destruct b; cbn [negb]; go; [|apply N; [apply kept_refl|qt]].
  intros now. rewrite wp_bind. apply exec_wp. intros tr o s' E. apply sample_asks in E. destruct E as (-> & Q & G).
  destruct o as [[[x xd]|]|]; [| |apply N; [apply kept_refl|qt]].
  - destruct G as (ys & vs & -> & F1 & _ & F3). cbn [app] in *. go. intros ai. brk; go.
    + destruct first_n as [q'|] eqn:FN; go.
      * apply first_n_some in FN. destruct FN as (L & ->). intros ap. split; [apply kept_refl|].
        intros y ay I M. rewrite in_app_iff in I. destruct I as [I|[I|[]]].
        -- exfalso. assert (QQ : quiet ([(GetControlModes, a); (Now, now)] ++ tr ++ [(InvKin (concat ys) q BASE_FRAME, ai)])).
           { apply quiet_app; [repeat constructor|]. apply quiet_app; [auto|repeat constructor]. }
           cbn in I, QQ. rewrite (quiet_in _ y ay QQ) in M; [discriminate|]. cbn. exact I.
        -- injection I as <- <-. eexists. split; [reflexivity|]. exists now, ys, ai.
           match goal with |- In _ ?l /\ _ => assert (EX : forall e, In e tr -> In e l) by (intros e H; cbn; rewrite ?in_app_iff; auto 8) end.
           split; [cbn; auto|]. split; [|split].
           ++ eapply F2_impl; [|exact F1]. intros e y (b1 & B1 & B2). exists b1. auto.
           ++ eapply Forall_impl; [|exact (F3 eq_refl)]. intros e (b1 & B1 & B2). exists b1. auto.
           ++ split; [cbn; rewrite ?in_app_iff; cbn; auto 8|]. auto.
      * apply N; [apply kept_refl|qt].
    + apply N; [apply kept_refl|qt].
  - apply wp_stop. intros ts ST. go. apply N; [apply kept_off|qt].
Qed.

(** the joint velocities [w] were found for the control law applied to the samples at the time that the clock told *)
Definition steered (n : nat) (ts : list traj) (start : R) (g : option R) (frame : Z) (timed : bool) (q : list R) (tr : list event) (w : list R) : Prop :=
  exists an ys vs cur e k cmd ai, In (Now, an) tr /\ Forall2 (pos_asked tr (num an - start)) ts ys /\ Forall2 (vel_asked tr (num an - start)) ts vs /\
    (timed = true -> Forall (in_time tr (num an - start)) ts) /\ In (FwdKin q, cur) tr /\ ok cur = true /\ In (PoseDiff (concat ys) (vals cur), e) tr /\
    (vals e = [] \/ g = Some k) /\ control_law k (vals e) (concat vs) = Some cmd /\
    In (DiffInvKin q cmd frame, ai) tr /\ ok ai = true /\ (n <= length (vals ai))%nat /\ w = firstn n (vals ai).
Definition vel_motion (n : nat) (ts : list traj) (start : R) (g : option R) (frame : Z) (timed : bool) (q : list R) (tr : list event) : Prop :=
  forall x a, In (x, a) tr -> motion x = true -> exists w, x = VelocityMove w /\ steered n ts start g frame timed q tr w.

Lemma vel_command c q cur dx dxd frame s t (Q : list event -> outcome bool -> st -> Prop) :
  (forall u o, quiet u -> Q (t ++ u) o s) ->
  (forall e k cmd ai av, (vals e = [] \/ loop_gain s = Some k) -> control_law k (vals e) dxd = Some cmd -> ok ai = true -> (numJoints c <= length (vals ai))%nat ->
     Q (t ++ [(PoseDiff dx cur, e); (DiffInvKin q cmd frame, ai); (VelocityMove (firstn (numJoints c) (vals ai)), av)]) (Done true) s) ->
  wp (velocity_command c q cur dx dxd frame) s t Q.
Proof.
  intros N H. unfold velocity_command. go. intros e.
  assert (K : forall k, (vals e = [] \/ loop_gain s = Some k) -> wp (
    let* cmd := need OutOfBounds (control_law k (vals e) dxd) in
    let* a := ask (DiffInvKin q cmd frame) in
    if negb (ok a) then Ret false else
    let* b := need OutOfBounds (checkJointVelocities c (vals a)) in
    if negb b then Ret false else
    let* w := need OutOfBounds (first_n (numJoints c) (vals a)) in
    let* _ := ask (VelocityMove w) in Ret true) s (t ++ [(PoseDiff dx cur, e)]) Q).
  { intros k HK. destruct control_law as [cmd|] eqn:CL; go; [|apply N; qt]. intros ai. brk; go; [|rewrite <- app_assoc; apply N; qt].
    destruct (checkJointVelocities c (vals ai)) as [b|]; go; [|rewrite <- app_assoc; apply N; qt].
    destruct b; cbn [negb]; go; [|rewrite <- app_assoc; apply N; qt].
    destruct first_n as [w|] eqn:FN; go; [|rewrite <- app_assoc; apply N; qt]. apply first_n_some in FN. destruct FN as (L & ->). intros av.
    rewrite <- !app_assoc. eapply H; eauto. }
  destruct (vals e) as [|y l] eqn:V; go; [apply K; auto|]. destruct (loop_gain s) as [k|] eqn:LG; go; [apply K; auto|]. apply N. qt.
Qed.
Lemma movl_vel_cycle c q s : wp (handleMovlVel c q) s [] (fun tr o s' => kept s s' /\
  vel_motion (numJoints c) (trajectories s) (movementStartTime s) (loop_gain s) BASE_FRAME true q tr).
Proof.
  assert (N : forall s' tr, kept s s' -> quiet tr -> kept s s' /\ vel_motion (numJoints c) (trajectories s) (movementStartTime s) (loop_gain s) BASE_FRAME true q tr).
  { intros s' tr K Q. split; [auto|]. intros x a I M. rewrite (quiet_in _ _ _ Q I) in M. discriminate. }
  unfold handleMovlVel. apply wp_check. intros a b A. destruct b; cbn [negb]; go; [|apply N; [apply kept_refl|qt]].
  intros now. rewrite wp_bind. apply exec_wp. intros tr o s' E. apply sample_asks in E. destruct E as (-> & Q & G).
  destruct o as [[[x xd]|]|]; [| |apply N; [apply kept_refl|qt]].
  - destruct G as (ys & vs & -> & F1 & F2 & F3). destruct (F2 eq_refl) as (-> & F4). cbn [app] in *. go. intros cur. brk; go; [|apply N; [apply kept_refl|qt]].
    apply vel_command.
    + intros u o U. apply N; [apply kept_refl|qt].
    + intros e k cmd ai av HK CL O L. split; [apply kept_refl|]. intros y ay I M.
      match goal with |- exists w, _ /\ steered _ _ _ _ _ _ _ ?l _ => assert (EX : forall e, In e tr -> In e l) by (intros z H; cbn; rewrite ?in_app_iff; auto 8) end.
      rewrite in_app_iff in I. cbn [In] in I. destruct I as [I|[I|[I|[I|[]]]]]; [|injection I as <- <-; discriminate|injection I as <- <-; discriminate|].
      * exfalso. apply quiet_in in I; [congruence|qt].
      * injection I as <- <-. eexists. split; [reflexivity|]. exists now, ys, vs, cur, e, k, cmd, ai.
        split; [cbn; auto|]. split; [eapply F2_impl; [|exact F1]; intros z y (b1 & B1 & B2); exists b1; auto|].
        split; [eapply F2_impl; [|exact F4]; intros z y (b1 & B1 & B2); exists b1; auto|].
        split; [intros _; eapply Forall_impl; [|exact (F3 eq_refl)]; intros z (b1 & B1 & B2); exists b1; auto|].
        split; [cbn; rewrite ?in_app_iff; cbn; auto 9|]. split; [auto|]. split; [cbn; rewrite ?in_app_iff; cbn; auto 9|]. split; [auto|]. split; [auto|].
        split; [cbn; rewrite ?in_app_iff; cbn; auto 9|]. auto.
  - apply wp_stop. intros ts ST. go. apply N; [apply kept_off|qt].
Qed.
Lemma movv_cycle c q s : wp (handleMovv c q) s [] (fun tr o s' => kept s s' /\
  vel_motion (numJoints c) (trajectories s) (movementStartTime s) (loop_gain s) (referenceFrame s) false q tr).
Proof.
  assert (N : forall s' tr, kept s s' -> quiet tr -> kept s s' /\ vel_motion (numJoints c) (trajectories s) (movementStartTime s) (loop_gain s) (referenceFrame s) false q tr).
  { intros s' tr K Q. split; [auto|]. intros x a I M. rewrite (quiet_in _ _ _ Q I) in M. discriminate. }
  unfold handleMovv. apply wp_check. intros a b A. destruct b; cbn [negb]; go; [|apply N; [apply kept_refl|qt]].
  intros now cur. brk; go; [|apply N; [apply kept_refl|qt]].
  rewrite wp_bind. apply exec_wp. intros tr o s' E. apply sample_asks in E. destruct E as (-> & Q & G).
  destruct o as [[[x xd]|]|]; [| |apply N; [apply kept_refl|qt]].
  - destruct G as (ys & vs & -> & F1 & F2 & F3). destruct (F2 eq_refl) as (-> & F4). cbn [app] in *. go.
    apply vel_command.
    + intros u o U. apply N; [apply kept_refl|qt].
    + intros e k cmd ai av HK CL O L. split; [apply kept_refl|]. intros y ay I M.
      match goal with |- exists w, _ /\ steered _ _ _ _ _ _ _ ?l _ => assert (EX : forall e, In e tr -> In e l) by (intros z H; cbn; rewrite ?in_app_iff; auto 8) end.
      rewrite in_app_iff in I. cbn [In] in I. destruct I as [I|[I|[I|[I|[]]]]]; [|injection I as <- <-; discriminate|injection I as <- <-; discriminate|].
      * exfalso. assert (QQ : quiet ([(GetControlModes, a); (Now, now); (FwdKin q, cur)] ++ tr)) by qt. apply (quiet_in _ y ay) in QQ; [congruence|exact I].
      * injection I as <- <-. eexists. split; [reflexivity|]. exists now, ys, vs, cur, e, k, cmd, ai.
        split; [cbn; auto|]. split; [eapply F2_impl; [|exact F1]; intros z y (b1 & B1 & B2); exists b1; auto|].
        split; [eapply F2_impl; [|exact F4]; intros z y (b1 & B1 & B2); exists b1; auto|].
        split; [discriminate|].
        split; [cbn; rewrite ?in_app_iff; cbn; auto 9|]. split; [auto|]. split; [cbn; rewrite ?in_app_iff; cbn; auto 9|]. split; [auto|]. split; [auto|].
        split; [cbn; rewrite ?in_app_iff; cbn; auto 9|]. auto.
  - go. apply N; [apply kept_refl|qt].
Qed.

(** ** The whole cycle *)
Section Cycle.
Variables (c : cfg) (v : Z) (h : list R -> prog bool) (Mo : list R -> list event -> Prop).
Hypothesis BODY : forall q qd qdd, (if Z.eqb v VOCAB_CC_MOVJ_CONTROLLING then handleMovj c
      else if Z.eqb v VOCAB_CC_MOVL_CONTROLLING then (if usePosdMovl c then handleMovlPosd c q else handleMovlVel c q)
      else if Z.eqb v VOCAB_CC_MOVV_CONTROLLING then handleMovv c q
      else if Z.eqb v VOCAB_CC_GCMP_CONTROLLING then handleGcmp c q
      else if Z.eqb v VOCAB_CC_FORC_CONTROLLING then handleForc c q qd qdd
      else Ret false) = h q.
Hypothesis NV : v <> VOCAB_CC_NOT_CONTROLLING.
Hypothesis MX : forall q t1 t t2, quiet t1 -> quiet t2 -> Mo q t -> Mo q (t1 ++ t ++ t2).
(** what happens in the cycle, with the joint positions that were read *)
Definition cycled (tr : list event) : Prop := quiet tr \/ exists a, In (GetEncoders, a) tr /\ ok a = true /\ Mo (fill 0 (numJoints c) (vals a)) tr.
Lemma cycle_wrap s tr o s' : currentState s = v ->
  (forall q s0, same_view s s0 -> wp (h q) s0 [] (fun t _ s1 => kept s0 s1 /\ Mo q t)) ->
  exec (run c) s tr o s' -> kept s s' /\ cycled tr.
Proof.
  intros CS HS. apply (wp_sound _ _ (fun tr _ s' => kept s s' /\ cycled tr)). unfold run. go. rewrite CS. destruct (Z.eqb_spec v VOCAB_CC_NOT_CONTROLLING) as [E|_]; [contradiction|].
  rewrite wp_bind. unfold cycle_body, read_encoders. go.
  assert (FIN : forall (b : bool) s1 t, kept s s1 -> cycled t -> wp (if b then Ret tt else modify (set_cmcSuccess false) ;; (let* _ := stopControl c in Ret tt)) s1 t (fun t _ s' => kept s s' /\ cycled t)).
  { intros [] s1 t K M; go; [auto|]. apply wp_stop. intros ts ST. go. split; [left; reflexivity|]. assert (QS : quiet ts) by qt. destruct M as [M|(a & A1 & A2 & A3)]; [left; apply quiet_app; auto|right; exists a]. split; [rewrite in_app_iff; auto|]. split; [auto|].
    rewrite <- (app_nil_l (t ++ ts)). apply MX; auto. }
  assert (KE : forall n, kept s (set_encoderErrors n s)) by (intro; right; repeat split).
  intros a. brk; go; [|apply FIN; [apply KE|left; qt]]. intros b. brk; go; [|apply FIN; [apply KE|left; qt]].
  intros d. brk; go; [|apply FIN; [apply KE|left; qt]].
  destruct checkJointLimits as [lim|]; go; [|split; [apply KE|left; qt]]. destruct lim; cbn [negb]; go; [|refine (FIN false (set_encoderErrors 0 s) _ _ _); [apply KE|left; qt]].
  rewrite BODY. set (s0 := set_encoderErrors 0 s). apply exec_wp. intros u ob s1 E.
  specialize (HS (fill 0 (numJoints c) (vals a)) s0 ltac:(repeat split)). apply wp_sound with (1 := HS) in E. destruct E as (K & M).
  assert (K1 : kept s s1) by (eapply kept_trans; [apply KE|exact K]).
  assert (M1 : cycled (((([] ++ [(GetEncoders, a)]) ++ [(GetEncoderSpeeds, b)]) ++ [(GetEncoderAccelerations, d)]) ++ u)).
  { right. exists a. split; [cbn; auto|]. split; [assumption|]. cbn [app]. rewrite <- (app_nil_r u). apply (MX _ [(GetEncoders, a); (GetEncoderSpeeds, b); (GetEncoderAccelerations, d)]); auto; qt. }
  destruct ob as [b0|e]; [apply FIN; auto|auto].
Qed.
End Cycle.

(** ** The other operations *)
Lemma wait_loop_kept c fuel : forall t st0 v s tr o s', exec (wait_loop c fuel t st0 v) s tr o s' -> (s' = s \/ s' = set_off s) /\ quiet tr.
Proof.
  induction fuel as [|fuel IH]; intros t st0 v s tr o s' E; cbn [wait_loop] in E.
  - destruct Z.eqb; cbn in E; destruct E as (-> & _ & ->); auto.
  - destruct Z.eqb; [cbn in E; destruct E as (-> & _ & ->); auto|].
    assert (G : forall late s tr o s', exec (if late : bool then let* _ := stopControl c in Ret tt else
        let* p := look waitPeriodMs in let* _ := ask (Sleep (IZR p / 1000)) in let* state' := look currentState in wait_loop c fuel t st0 state') s tr o s' ->
        (s' = s \/ s' = set_off s) /\ quiet tr).
    { intros late s0 tr0 o0 s0' E0. destruct late.
      - apply exec_bind in E0. destruct E0 as [(b & t1 & t2 & s1 & -> & E1 & E2)|(e & -> & E1)]; apply stop_spec in E1; pose proof (stopped_all _ _ _ _ _ E1) as Q1; destruct E1 as (E1 & -> & _); [|discriminate].
        cbn in E2. destruct E2 as (-> & _ & ->). split; [auto|qt].
      - cbn [bind look ask exec] in E0. destruct E0 as (a & t1 & -> & E1). apply IH in E1. destruct E1 as (A & B). split; [exact A|qt]. }
    apply exec_bind in E. destruct E as [(late & t1 & t2 & s1 & -> & E1 & E2)|(e & -> & E1)].
    + assert (s1 = s /\ quiet t1) as (-> & Q1). { destruct Reqb; cbn in E1; [destruct E1 as (-> & _ & ->); auto|]. destruct E1 as (a & t' & -> & -> & _ & ->). split; [auto|qt]. }
      apply G in E2. destruct E2 as (A & B). split; [exact A|qt].
    + exfalso. destruct Reqb; cbn in E1; [destruct E1 as (_ & X & _); discriminate|]. destruct E1 as (a & t' & _ & _ & X & _). discriminate.
Qed.
Lemma other_kept c o s tr b s' : lets_go_on o -> o <> OCycle -> exec (do_op c o) s tr (Done b) s' -> kept s s' /\ quiet tr.
Proof.
  intros L NC E.
  assert (A : forall (p : prog bool), all (fun x => motion x = false) kept p -> exec p s tr (Done b) s' -> kept s s' /\ quiet tr).
  { intros p H E0. exact (all_exec _ kept p kept_refl kept_trans H _ _ _ _ E0). }
  set (P := fun a b : st => currentState a = VOCAB_CC_NOT_CONTROLLING -> currentState b = VOCAB_CC_NOT_CONTROLLING).
  assert (A' : forall (p : prog bool), all (fun x => motion x = false) P p -> exec p s tr (Done b) s' -> currentState s = VOCAB_CC_NOT_CONTROLLING -> kept s s' /\ quiet tr).
  { intros p H E0 N. destruct (all_exec _ P p (fun a H => H) (fun a b d H1 H2 H3 => H2 (H1 H3)) H _ _ _ _ E0) as (H1 & H2). split; [left; auto|auto]. }
  assert (AS : forall k x, all (fun x => motion x = false) P (setParameter c k x)).
  { intros k x. unfold setParameter, presetStreamingCommand. pall; try (intros s0 Hs; exact Hs); try (intros s0 Hs; reflexivity); try reflexivity; try (apply all_modes; repeat split; auto). }
  destruct o; cbn [do_op lets_go_on] in *; try contradiction; try congruence.
  - apply A in E; auto. pall. apply all_stat; repeat split; auto.
  - apply A in E; auto. pall. apply all_inv; repeat split; auto.
  - apply stop_spec in E. pose proof (stopped_all _ _ _ _ _ E). destruct E as (_ & -> & _). split; [apply kept_off|auto].
  - unfold wait in E. cbn [bind look exec] in E. destruct (negb _ && negb _); [cbn in E; destruct E as (-> & _ & ->); split; [apply kept_refl|constructor]|].
    cbn [bind ask exec] in E. destruct E as (a & t1 & -> & E). apply exec_bind in E. destruct E as [(u & t2 & t3 & s1 & -> & E1 & E2)|(e & X & _)]; [|discriminate].
    apply wait_loop_kept in E1. destruct E1 as (K & Q). cbn in E2. destruct E2 as (-> & _ & ->). split; [destruct K as [-> | ->]; [apply kept_refl|apply kept_off]|qt].
  - apply A in E; auto. apply all_tool; repeat split; auto.
  - apply A in E; auto. unfold act. pall.
  - destruct (Z.eq_dec (currentState s) VOCAB_CC_NOT_CONTROLLING) as [N|N]; [eapply A'; eauto|].
    unfold setParameter in E. cbn [bind look exec] in E. destruct (Z.eqb_spec (currentState s) VOCAB_CC_NOT_CONTROLLING); [contradiction|].
    cbn in E. destruct E as (-> & _ & ->). split; [apply kept_refl|constructor].
  - apply A in E; auto. unfold getParameter. pall.
  - unfold setParameters in E. cbn [bind look exec] in E. destruct (Z.eqb_spec (currentState s) VOCAB_CC_NOT_CONTROLLING) as [N|N]; cbn [negb] in E.
    + refine (A' (set_all c params true) _ E N). assert (X : forall m f, all (fun x => motion x = false) P (set_all c m f)); [|apply X].
      induction m as [|[k v] m IH]; intros; cbn [set_all]; pall; [apply AS|apply IH].
    + cbn in E. destruct E as (-> & _ & ->). split; [apply kept_refl|constructor].
  - apply A in E; auto. unfold getParameters. pall.
Qed.
