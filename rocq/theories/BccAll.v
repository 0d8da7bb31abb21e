From Coq Require Import Reals ZArith List Bool Lra Lia.
From Verif Require Import Kdl Vocab Bcc BccSpec BccFacts.
Import ListNotations.
Open Scope R_scope.
Local Notation S := Datatypes.S.

(** ** What all paths of a program do *)
Fixpoint all {A} (C : call -> Prop) (P : st -> st -> Prop) (p : prog A) : Prop :=
  match p with
  | Ret _ | Stuck _ => True
  | Call x k => C x /\ forall a, all C P (k a)
  | Get k => forall s, all C P (k s)
  | Mod f k => (forall s, P s (f s)) /\ all C P k
  end.
Lemma all_bind {A B} C P (p : prog A) (f : A -> prog B) : all C P p -> (forall a, all C P (f a)) -> all C P (bind p f).
Proof. induction p; cbn; intros H' F; auto; intuition. Qed.
Lemma all_exec {A} C (P : st -> st -> Prop) (p : prog A) : (forall s, P s s) -> (forall a b d, P a b -> P b d -> P a d) ->
  all C P p -> forall s tr o s', exec p s tr o s' -> P s s' /\ Forall (fun e => C (fst e)) tr.
Proof.
  intros R T. induction p as [a|e|x k IH|k IH|f k IH]; cbn; intros H s tr o s' E.
  - destruct E as (-> & _ & ->). auto.
  - destruct E as (-> & _ & ->). auto.
  - destruct H as (H1 & H2). destruct E as (a & tr' & -> & E). destruct (IH _ (H2 a) _ _ _ _ E). auto.
  - eauto.
  - destruct H as (H1 & H2). destruct (IH H2 _ _ _ _ E). split; [eapply T; eauto|auto].
Qed.

Ltac pall_step :=
  match goal with
  | |- all _ _ (bind _ _) => apply all_bind; [|intro]
  | |- all _ _ (ask _) => cbn; split; [|intro; exact I]
  | |- all _ _ (look _) => cbn; intro; exact I
  | |- all _ _ (modify _) => cbn; split; [|exact I]
  | |- all _ _ (need _ ?o) => destruct o; exact I
  | |- all _ _ (Ret _) => exact I
  | |- all _ _ (Stuck _) => exact I
  | |- all _ _ (if ?b then _ else _) => destruct b
  | |- all _ _ (match ?x with _ => _ end) => destruct x
  end.
Ltac pall := repeat pall_step.

Section Generic.
Variables (C : call -> Prop) (P : st -> st -> Prop) (c : cfg).
Hypothesis CM : C GetControlModes /\ (forall i m, C (SetControlModes i m)) /\ (forall t, C (Sleep t)).
Lemma all_check m : all C P (checkControlModes c m).
Proof. unfold checkControlModes. pall. apply CM. Qed.
Lemma all_retries m n : all C P (mode_retries c m n).
Proof. induction n; cbn [mode_retries]; pall; try apply CM; try apply all_check; try exact IHn. Qed.
Lemma all_modes m : all C P (setControlModes c m).
Proof. unfold setControlModes. pall; try apply CM. apply all_retries. Qed.
Hypothesis PS : C Stop /\ (forall s, P s (setCurrentState VOCAB_CC_NOT_CONTROLLING s)) /\ (forall s, P s (set_trajectories [] s)).
Lemma all_stop : all C P (stopControl c).
Proof. unfold stopControl. pall; try apply PS. apply all_modes. Qed.
Hypothesis CW : C Now.
Lemma all_wait_loop fuel : forall t st0 v, all C P (wait_loop c fuel t st0 v).
Proof.
  induction fuel; intros; cbn [wait_loop]; pall; try apply CW; try apply all_stop; try apply CM. apply IHfuel.
Qed.
Lemma all_wait fuel t : all C P (wait c fuel t).
Proof. unfold wait. pall; try apply CW. apply all_wait_loop. Qed.
Hypothesis CE : C GetEncoders /\ C GetEncoderSpeeds /\ C GetEncoderAccelerations.
Hypothesis CS : (forall q, C (FwdKin q)) /\ (forall x q f, C (InvKin x q f)) /\ (forall q x f, C (DiffInvKin q x f)) /\
  (forall q a b f g, C (InvDynForce q a b f g)) /\ (forall a b, C (ChangeOrigin a b)) /\ C GetNumTcps.
Hypothesis CT : C LastInputStamp /\ C GetPeriod.
Lemma all_stat b : all C P (stat c b).
Proof. unfold stat. pall; try apply CE; try apply CS. destruct preciselyTimed; [apply CT|apply CW]. Qed.
Lemma all_inv x : all C P (inv c x).
Proof. unfold inv. pall; try apply CE; apply CS. Qed.
Hypothesis CR : C GetRefSpeeds /\ (forall v, C (SetRefSpeeds v)) /\ (forall q, C (PositionMove q)).
Hypothesis PM : (forall s v, P s (set_vmoStored v s)) /\ (forall s, P s (set_cmcSuccess true s)) /\
  (forall s v, In v controlling_states -> P s (setCurrentState v s)) /\
  (forall s v, P s (set_trajectories v s)) /\ (forall s v, P s (set_startTime v s)) /\ (forall s v, P s (set_fd v s)).
Lemma all_movj x : all C P (movj c x).
Proof.
  unfold movj. pall; try apply CE; try apply CS; try apply CR; try apply all_modes; try (intros; apply PM). cbn. auto.
Qed.
Lemma all_relj x : all C P (relj c x).
Proof. unfold relj. pall; try apply all_movj. apply all_stat. Qed.
Hypothesis CK : (forall t, C (TrajDuration t)) /\ (forall t x, C (TrajPos t x)) /\ (forall t x, C (TrajVel t x)).
Lemma all_max ts : forall m, all C P (max_duration ts m).
Proof. induction ts; intros; cbn [max_duration]; pall; [apply CK|apply IHts]. Qed.
Lemma all_positions ts time : forall x, all C P (positions ts time x).
Proof. induction ts; intros; cbn [positions]; pall; [apply CK|apply IHts]. Qed.
Lemma all_failfast_loop ts step m fuel : forall i q b, all C P (failfast_loop c ts fuel i step m q b).
Proof. induction fuel; intros; cbn [failfast_loop]; pall; try apply all_positions; try apply CS. apply IHfuel. Qed.
Lemma all_failfast fuel q : all C P (doFailFastChecks c fuel q).
Proof. unfold doFailFastChecks. pall; try apply CT; try apply CS; try apply all_max. apply all_failfast_loop. Qed.
Lemma all_movl fuel x : all C P (movl c fuel x).
Proof.
  unfold movl. pall; try apply CE; try apply CS; try apply all_modes; try apply CW; try apply all_failfast; try (intros; apply PM). cbn; auto.
Qed.
Lemma all_movv x : all C P (movv c x).
Proof. unfold movv. pall; try apply CE; try apply CS; try apply all_modes; try apply CW; try (intros; apply PM). cbn; auto. Qed.
Lemma all_gcmp : all C P (gcmp c).
Proof. unfold gcmp. pall; try apply all_modes. intros; apply PM. cbn; auto. Qed.
Lemma all_forc f : all C P (forc c f).
Proof. unfold forc. pall; try apply all_modes; intros; apply PM. cbn; auto 7. Qed.
Hypothesis CL : C RestoreOriginalChain /\ (forall x, C (AppendLink x)).
Lemma all_tool x : all C P (tool x).
Proof. unfold tool. pall; apply CL. Qed.
Hypothesis PP : (forall s v, P s (set_gain v s)) /\ (forall s v, P s (set_duration v s)) /\ (forall s v, P s (set_cmcPeriodMs v s)) /\
  (forall s v, P s (set_waitPeriodMs v s)) /\ (forall s v, P s (set_frame v s)) /\ (forall s v, P s (set_streaming v s)) /\ (forall x, C (SetPeriod x)).
Lemma all_set k v : all C P (setParameter c k v).
Proof. unfold setParameter, presetStreamingCommand. pall; try (intros; apply PP); try apply all_modes. apply PS. Qed.
Lemma all_sets m : all C P (setParameters c m).
Proof.
  unfold setParameters. pall. assert (X : forall b, all C P (set_all c m b)); [|apply X].
  induction m as [|[k v] m IH]; intros; cbn [set_all]; pall; [apply all_set|apply IH].
Qed.
Lemma all_sample ts time b w : forall x xd, all C P (sample ts time b w x xd).
Proof. induction ts; intros; cbn [sample]; pall; try apply CK; apply IHts. Qed.
Hypothesis CN : (forall v, C (VelocityMove v)) /\ (forall v, C (SetPositions v)) /\ (forall v, C (SetRefTorques v)).
Lemma all_pose x : all C P (pose c x).
Proof. unfold pose. pall; try apply all_check; try apply CE; try apply CS; apply CN. Qed.
Lemma all_twist x : all C P (twist c x).
Proof. unfold twist. pall; try apply all_check; try apply CE; try apply CS; apply CN. Qed.
Lemma all_wrench x : all C P (wrench c x).
Proof. unfold wrench, read_encoders. pall; try apply all_check; try apply CE; try apply CS; apply CN. Qed.
(** the handlers *)
Lemma all_velocity q cx dx dxd f : (forall a b, C (PoseDiff a b)) -> all C P (velocity_command c q cx dx dxd f).
Proof. intros H. unfold velocity_command. pall; try apply H; try apply CS; apply CN. Qed.
Hypothesis CH : C CheckMotionDone /\ (forall a b, C (PoseDiff a b)) /\ (forall q, C (InvDyn q)).
Lemma all_handleMovj : all C P (handleMovj c).
Proof. unfold handleMovj. pall; try apply all_check; try apply CH; try apply CR. apply PS. Qed.
Lemma all_handleMovlVel q : all C P (handleMovlVel c q).
Proof. unfold handleMovlVel. pall; try apply all_check; try apply CW; try apply all_sample; try apply all_stop; try apply CS. apply all_velocity, CH. Qed.
Lemma all_handleMovlPosd q : all C P (handleMovlPosd c q).
Proof. unfold handleMovlPosd. pall; try apply all_check; try apply CW; try apply all_sample; try apply all_stop; try apply CS. apply CN. Qed.
Lemma all_handleMovv q : all C P (handleMovv c q).
Proof. unfold handleMovv. pall; try apply all_check; try apply CW; try apply all_sample; try apply CS. apply all_velocity, CH. Qed.
Lemma all_handleGcmp q : all C P (handleGcmp c q).
Proof. unfold handleGcmp. pall; try apply all_check; try apply CH; apply CN. Qed.
Lemma all_handleForc q a b : all C P (handleForc c q a b).
Proof. unfold handleForc. pall; try apply all_check; try apply CS; apply CN. Qed.
End Generic.

Ltac op_all := match goal with
  | |- all _ _ (checkControlModes _ _) => apply all_check | |- all _ _ (setControlModes _ _) => apply all_modes
  | |- all _ _ (stat _ _) => apply all_stat | |- all _ _ (inv _ _) => apply all_inv | |- all _ _ (movj _ _) => apply all_movj
  | |- all _ _ (relj _ _) => apply all_relj | |- all _ _ (movl _ _ _) => apply all_movl | |- all _ _ (movv _ _) => apply all_movv
  | |- all _ _ (gcmp _) => apply all_gcmp | |- all _ _ (forc _ _) => apply all_forc | |- all _ _ (stopControl _) => apply all_stop
  | |- all _ _ (wait _ _ _) => apply all_wait | |- all _ _ (tool _) => apply all_tool | |- all _ _ (pose _ _) => apply all_pose
  | |- all _ _ (twist _ _) => apply all_twist | |- all _ _ (wrench _ _) => apply all_wrench
  | |- all _ _ (setParameter _ _ _) => apply all_set | |- all _ _ (setParameters _ _) => apply all_sets
  end.

