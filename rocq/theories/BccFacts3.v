From Coq Require Import Reals ZArith List Bool Lra Lia.
From Verif Require Import Kdl Vocab Bcc BccSpec BccFacts BccFacts2.
Import ListNotations.
Open Scope R_scope.
Local Notation S := Datatypes.S.

(** ** Symbolic execution *)
Ltac brk := match goal with
  | |- context [if negb (ok ?a) then _ else _] => destruct (ok a) eqn:?; cbn [negb]
  | |- context [if negb ?b then _ else _] => is_var b; destruct b eqn:?; cbn [negb]
  end.
Ltac go := cbn [wp bind ask look modify need].
Ltac inlist := rewrite ?in_app_iff in *; cbn [In] in *.

Lemma wp_modes {B} c m (f : bool -> prog B) s t Q :
  (forall tr b, modes_changed c m s tr (Done b) s -> wp (f b) s (t ++ tr) Q) -> wp (bind (setControlModes c m) f) s t Q.
Proof.
  intros H. rewrite wp_bind. apply wp_use with (Q := modes_changed c m s).
  - apply set_modes.
  - intros tr o s' M. pose proof M as (-> & _ & b & -> & _). auto.
Qed.
Lemma wp_check {B} c m (f : bool -> prog B) s t Q :
  (forall a b, (b = true <-> all_in_mode (numJoints c) m a) -> wp (f b) s (t ++ [(GetControlModes, a)]) Q) ->
  wp (bind (checkControlModes c m) f) s t Q.
Proof.
  intros H. rewrite wp_bind. apply exec_wp. intros tr o s' M. apply check_modes in M.
  destruct M as (-> & a & b & -> & -> & M). auto.
Qed.
Lemma wp_stop {B} c (f : bool -> prog B) s t Q :
  (forall tr, stopped c s tr (Done true) (set_off s) -> wp (f true) (set_off s) (t ++ tr) Q) -> wp (bind (stopControl c) f) s t Q.
Proof.
  intros H. rewrite wp_bind. apply wp_use with (Q := stopped c s).
  - apply stop_spec.
  - intros tr o s' M. pose proof M as (-> & -> & _). auto.
Qed.

Lemma first_n_some n l t : first_n n l = Some t -> (n <= length l)%nat /\ t = firstn n l.
Proof. unfold first_n. destruct (Nat.ltb_spec (length l) n); intros X; [discriminate|injection X as <-; auto]. Qed.
Lemma nth_firstn {A} (d : A) n l j : (j < n)%nat -> nth j (firstn n l) d = nth j l d.
Proof. revert l j. induction n; intros [|x l] [|j] H; cbn; auto; try lia. apply IHn. lia. Qed.

(** ** movj *)
Lemma must_move_fill n refs q qd : must_move n refs (fill 0 n q) qd <-> must_move n refs q qd.
Proof.
  unfold must_move. split; intros (j & J1 & J2 & J3); exists j; (split; [exact J1|split; [exact J2|]]);
    rewrite fill_nth in * by assumption; auto.
Qed.
Lemma isochronous_fill n refs q qd v T : isochronous n refs (fill 0 n q) qd v T -> isochronous n refs q qd v T.
Proof.
  intros (A & B & C & D). split; [exact A|]. split; [exact B|]. split; [|exact D].
  intros j Hj. specialize (C j Hj). now rewrite fill_nth in C.
Qed.

Section Movj.
Variables (c : cfg) (xd : list R) (s : st).
Notation n := (numJoints c).
Definition stored (ag : answer) : st := set_vmoStored (fill 0 n (vals ag)) s.
Inductive movj_run : list event -> outcome bool -> st -> Prop :=
| mj_encoders aq : ok aq = false -> movj_run [(GetEncoders, aq)] (Done false) s
| mj_solver aq ai : ok aq = true -> ok ai = false ->
    movj_run [(GetEncoders, aq); (InvKin xd (fill 0 n (vals aq)) (referenceFrame s), ai)] (Done false) s
| mj_short aq ai : ok aq = true -> ok ai = true ->
    computeIsocronousSpeeds c (fill 0 n (vals aq)) (vals ai) = None ->
    movj_run [(GetEncoders, aq); (InvKin xd (fill 0 n (vals aq)) (referenceFrame s), ai)] (Trouble OutOfBounds) s
| mj_still aq ai : ok aq = true -> ok ai = true ->
    ~ must_move n (qRefSpeeds c) (vals aq) (vals ai) ->
    movj_run [(GetEncoders, aq); (InvKin xd (fill 0 n (vals aq)) (referenceFrame s), ai)] (Done true) s
| mj_unstored aq ai ag : ok aq = true -> ok ai = true -> ok ag = false ->
    must_move n (qRefSpeeds c) (vals aq) (vals ai) ->
    movj_run [(GetEncoders, aq); (InvKin xd (fill 0 n (vals aq)) (referenceFrame s), ai); (GetRefSpeeds, ag)] (Done false) (stored ag)
| mj_moved aq ai ag v av T tr o s' : ok aq = true -> ok ai = true -> ok ag = true ->
    must_move n (qRefSpeeds c) (vals aq) (vals ai) ->
    isochronous n (qRefSpeeds c) (vals aq) (vals ai) v T ->
    movj_tail ai av tr o s' (stored ag) ->
    movj_run ([(GetEncoders, aq); (InvKin xd (fill 0 n (vals aq)) (referenceFrame s), ai); (GetRefSpeeds, ag);
               (SetRefSpeeds v, av)] ++ tr) o s'
with movj_tail : answer -> answer -> list event -> outcome bool -> st -> st -> Prop :=
| mt_refused ai av s1 : ok av = false -> movj_tail ai av [] (Done false) s1 s1
| mt_mode ai av tm s1 : ok av = true -> modes_changed c VOCAB_CM_POSITION s1 tm (Done false) s1 -> movj_tail ai av tm (Done false) s1 s1
| mt_short ai av tm s1 : ok av = true -> modes_changed c VOCAB_CM_POSITION s1 tm (Done true) s1 -> (length (vals ai) < n)%nat ->
    movj_tail ai av tm (Trouble OutOfBounds) s1 s1
| mt_move ai av tm ap s1 : ok av = true -> modes_changed c VOCAB_CM_POSITION s1 tm (Done true) s1 -> (n <= length (vals ai))%nat ->
    movj_tail ai av (tm ++ [(PositionMove (firstn n (vals ai)), ap)])
      (Done (ok ap)) (if ok ap then setCurrentState VOCAB_CC_MOVJ_CONTROLLING (set_cmcSuccess true s1) else s1) s1.

Lemma movj_runs tr o s' : exec (movj c xd) s tr o s' -> movj_run tr o s'.
Proof.
  apply wp_sound. unfold movj. go. intros aq. brk; go; [|now apply mj_encoders].
  intros ai. brk; go; [|now apply mj_solver].
  destruct computeIsocronousSpeeds as [[v b]|] eqn:Iso; go; [|now apply mj_short].
  apply isochronous_speeds in Iso. cbn [fst snd]. destruct Iso as (I1 & I2 & _). rewrite must_move_fill in I2.
  destruct b; go.
  2:{ apply mj_still; auto. rewrite <- I2. discriminate. }
  destruct (I1 eq_refl) as (T & I3). apply isochronous_fill in I3. clear I1.
  pose proof (proj1 I2 eq_refl) as I4. intros ag. brk; go; [|now apply mj_unstored].
  intros av. cbn [app].
  assert (X : forall tr o s', movj_tail ai av tr o s' (stored ag) -> movj_run ([(GetEncoders, aq); (InvKin xd (fill 0 n (vals aq)) (referenceFrame s), ai); (GetRefSpeeds, ag);
               (SetRefSpeeds v, av)] ++ tr) o s') by (intros; eapply mj_moved; eauto).
  fold (stored ag). set (t0 := [_; _; _; _]) in *. clearbody t0. brk; go.
  2:{ rewrite <- (app_nil_r t0). apply X. now constructor. }
  apply wp_modes. intros tm b M. destruct b; cbn [negb]; go.
  2:{ apply X. now apply mt_mode. }
  destruct first_n as [t|] eqn:E; go.
  2:{ apply X. apply mt_short; auto. unfold first_n in E. destruct (Nat.ltb_spec (length (vals ai)) n); [assumption|discriminate]. }
  apply first_n_some in E. destruct E as (L & ->). intros ap. rewrite <- app_assoc.
  pose proof (mt_move ai av tm ap (stored ag) ltac:(assumption) M L) as Y. apply X in Y. destruct (ok ap); exact Y.
Qed.
End Movj.

Lemma modes_in c m s tr o s' : modes_changed c m s tr o s' -> forall e, In e tr -> mode_call m e.
Proof. intros (_ & F & _) e. now apply Forall_forall. Qed.
Lemma modes_quiet c m s tr o s' : modes_changed c m s tr o s' -> motions tr = [].
Proof. intros (_ & F & _). eapply quiet_motions; eauto. Qed.

(** the calls of a mode change are of no other kind *)
Ltac nomode := match goal with
  | H : In (?x, _) ?tr, M : modes_changed _ _ _ ?tr _ _ |- _ => apply (modes_in _ _ _ _ _ _ M) in H; cbn in H; tauto
  end.

Lemma movj_speeds c xd s tr o s' v a : exec (movj c xd) s tr o s' -> In (SetRefSpeeds v, a) tr -> exists aq ai T,
  In (GetEncoders, aq) tr /\ In (InvKin xd (fill 0 (numJoints c) (vals aq)) (referenceFrame s), ai) tr /\
  ok aq = true /\ ok ai = true /\ isochronous (numJoints c) (qRefSpeeds c) (vals aq) (vals ai) v T.
Proof.
  intros E H. apply movj_runs in E. destruct E as [|aq ai|aq ai|aq ai|aq ai ag|aq ai ag w av T tr o s' E1 E2 E3 E4 E5 E6];
    try (exfalso; cbn in H; intuition congruence).
  exists aq, ai, T. cbn in *. assert (v = w) as ->.
  { destruct H as [H|[H|[H|[H|H]]]]; try congruence. exfalso. destruct E6; cbn in H; try tauto; try nomode.
    apply in_app_iff in H. destruct H as [H|[H|[]]]; [nomode|discriminate]. }
  auto 10.
Qed.
Lemma last_only {A} (l : list A) x t1 y t2 : l ++ [x] = t1 ++ y :: t2 -> ~ In y l -> t2 = [] /\ t1 = l /\ y = x.
Proof.
  intros E N. destruct t2 as [|z t2] using rev_ind.
  - apply app_inj_tail in E. destruct E as (-> & ->). auto.
  - exfalso. change (t1 ++ y :: t2 ++ [z]) with (t1 ++ (y :: t2) ++ [z]) in E. rewrite app_assoc in E.
    apply app_inj_tail in E. destruct E as (E & _). apply N. rewrite E. apply in_app_iff. right. now left.
Qed.
Lemma movj_moves c xd s tr o s' t a t1 t2 : exec (movj c xd) s tr o s' -> tr = t1 ++ (PositionMove t, a) :: t2 -> exists aq ai v av,
  In (GetEncoders, aq) t1 /\ In (InvKin xd (fill 0 (numJoints c) (vals aq)) (referenceFrame s), ai) t1 /\
  ok aq = true /\ ok ai = true /\ In (SetRefSpeeds v, av) t1 /\ ok av = true /\
  t = firstn (numJoints c) (vals ai) /\ (numJoints c <= length (vals ai))%nat /\ t2 = [].
Proof.
  intros E H. apply movj_runs in E.
  assert (I : In (PositionMove t, a) tr) by (rewrite H; apply in_app_iff; right; now left).
  destruct E as [|aq ai|aq ai|aq ai|aq ai ag|aq ai ag w av T tr o s' E1 E2 E3 E4 E5 E6]; try (exfalso; cbn in I; intuition congruence).
  destruct E6 as [ai av s1|ai av tm s1 ? M|ai av tm s1 ? M|ai av tm ap s1 Hv M L];
    try (exfalso; cbn in I; intuition (try congruence; nomode)).
  rewrite app_assoc in H. apply last_only in H.
  - destruct H as (-> & -> & X). injection X as -> ->. exists aq, ai, w, av. cbn. auto 12.
  - cbn. intros X. repeat (destruct X as [X|X]; [discriminate|]). nomode.
Qed.

Lemma movj_outcome c xd s tr s' : exec (movj c xd) s tr (Done true) s' -> exists aq ai,
  In (GetEncoders, aq) tr /\ In (InvKin xd (fill 0 (numJoints c) (vals aq)) (referenceFrame s), ai) tr /\ ok aq = true /\ ok ai = true /\
  ((must_move (numJoints c) (qRefSpeeds c) (vals aq) (vals ai) /\
    exists a, In (PositionMove (firstn (numJoints c) (vals ai)), a) tr /\ ok a = true /\ currentState s' = VOCAB_CC_MOVJ_CONTROLLING) \/
   (~ must_move (numJoints c) (qRefSpeeds c) (vals aq) (vals ai) /\ motions tr = [] /\ s' = s)).
Proof.
  intros E. apply movj_runs in E. inversion E as [| | |aq ai H1 H2 H3| |aq ai ag w av T tr' o s1 E1 E2 E3 E4 E5 E6]; subst.
  - exists aq, ai. cbn. auto 10.
  - exists aq, ai. cbn. repeat split; auto. left. split; [exact E4|].
    inversion E6 as [| | |? ? tm ap ? Hv M L X1 X2 X3 Hp]; subst. exists ap. rewrite Hp. split; [|auto]. do 4 right. apply in_app_iff. right. now left.
Qed.

(** ** The handlers of a cycle *)
Definition good_event (c : cfg) (e : event) : Prop :=
  let (x, a) := e in
  match x with
  | FwdKin _ | InvKin _ _ _ | InvDyn _ | InvDynForce _ _ _ _ _ | CheckMotionDone => ok a = true
  | DiffInvKin _ _ _ => ok a = true /\ slow c (vals a)
  | GetEncoders => ok a = true /\ inside c (vals a)
  | GetEncoderSpeeds | GetEncoderAccelerations => ok a = true
  | _ => True
  end.
Definition fast_event (c : cfg) (e : event) : Prop :=
  match fst e with VelocityMove v => slow c v /\ length v = numJoints c | _ => True end.
Definition ended (tr : list event) (s s' : st) : Prop :=
  motions tr = [] /\
  ((s' = setCurrentState VOCAB_CC_NOT_CONTROLLING s /\ currentState s = VOCAB_CC_MOVJ_CONTROLLING /\
    exists a, In (CheckMotionDone, a) tr /\ ok a = true /\ done a = true) \/
   (s' = set_off s /\ currentState s = VOCAB_CC_MOVL_CONTROLLING /\
    exists a0 t a, In (Now, a0) tr /\ In (TrajDuration t, a) tr /\ In t (trajectories s) /\ num a < num a0 - movementStartTime s)).
Definition handled (c : cfg) (m : Z) (s : st) (tr : list event) (o : outcome bool) (s' : st) : Prop :=
  Forall (fast_event c) tr /\
  match o with
  | Trouble _ => motions tr = []
  | Done false => motions tr = [] /\ s' = s
  | Done true =>
      (exists a tr', tr = (GetControlModes, a) :: tr' /\ all_in_mode (numJoints c) m a) /\ Forall (good_event c) tr /\
      ((s' = s /\ (length (motions tr) <= 1)%nat) \/ ended tr s s')
  end.

Definition traj_event (e : event) : Prop := match fst e with TrajDuration _ | TrajPos _ _ | TrajVel _ _ => True | _ => False end.
Lemma traj_quiet tr : Forall traj_event tr -> motions tr = [].
Proof. unfold motions. induction 1 as [|[x a] tr H _ IH]; [reflexivity|]. destruct x; cbn in *; tauto. Qed.
Lemma traj_good c tr : Forall traj_event tr -> Forall (good_event c) tr /\ Forall (fast_event c) tr.
Proof.
  intros H. split; (eapply Forall_impl; [|exact H]); intros [x a]; unfold traj_event, good_event, fast_event; cbn; destruct x; tauto.
Qed.
Lemma mode_good c m tr : Forall (mode_call m) tr -> Forall (good_event c) tr /\ Forall (fast_event c) tr.
Proof.
  intros H. split; (eapply Forall_impl; [|exact H]); intros [x a]; unfold mode_call, good_event, fast_event; cbn; destruct x; tauto.
Qed.
Lemma sample_spec ts time b w : forall x xd s tr o s', exec (sample ts time b w x xd) s tr o s' ->
  s' = s /\ Forall traj_event tr /\ exists r, o = Done r /\
  (r = None -> b = true /\ exists t a, In (TrajDuration t, a) tr /\ In t ts /\ num a < time).
Proof.
  induction ts as [|t ts IH]; intros x xd s tr o s'; cbn [sample].
  - cbn. intros (-> & -> & ->). repeat split; auto. eexists. split; [reflexivity|discriminate].
  - assert (X : forall s tr o s', exec (let* p := ask (TrajPos t time) in
        if w then let* v := ask (TrajVel t time) in sample ts time b w (x ++ vals p) (xd ++ vals v)
        else sample ts time b w (x ++ vals p) xd) s tr o s' ->
      s' = s /\ Forall traj_event tr /\ exists r, o = Done r /\
      (r = None -> b = true /\ exists t a, In (TrajDuration t, a) tr /\ In t ts /\ num a < time)).
    { clear s tr o s'. intros s tr o s' E. cbn [bind ask exec] in E. destruct E as (a & tr' & -> & E). destruct w.
      - cbn [bind ask exec] in E. destruct E as (a' & tr'' & -> & E). apply IH in E. destruct E as (-> & F & r & -> & G).
        split; [reflexivity|]. split; [repeat constructor; exact F|]. exists r. split; [reflexivity|]. intros Z.
        destruct (G Z) as (Zb & u & b' & U1 & U2 & U3). split; [exact Zb|]. exists u, b'. cbn. auto.
      - apply IH in E. destruct E as (-> & F & r & -> & G). split; [reflexivity|]. split; [repeat constructor; exact F|].
        exists r. split; [reflexivity|]. intros Z. destruct (G Z) as (Zb & u & b' & U1 & U2 & U3). split; [exact Zb|]. exists u, b'. cbn. auto. }
    destruct b.
    + cbn [bind ask exec]. intros (a & tr' & -> & E). destruct (Rltb_spec (num a) time) as [L|L]; cbn [bind] in E.
      * cbn in E. destruct E as (-> & -> & ->). split; [reflexivity|]. split; [repeat constructor|]. exists None. split; [reflexivity|].
        intros _. split; [reflexivity|]. exists t, a. cbn. auto.
      * apply X in E. destruct E as (-> & F & r & -> & G). split; [reflexivity|]. split; [repeat constructor; exact F|].
        exists r. split; [reflexivity|]. intros Z. destruct (G Z) as (Zb & u & b' & U1 & U2 & U3). split; [exact Zb|].
        exists u, b'. cbn. auto.
    + cbn [bind]. intros E. apply X in E. destruct E as (-> & F & r & -> & G). repeat split; auto. exists r. split; [reflexivity|].
      intros Z. destruct (G Z). discriminate.
Qed.
Lemma wp_sample {B} ts time b w (f : option (list R * list R) -> prog B) s t Q :
  (forall tr r, Forall traj_event tr -> (r = None -> b = true /\ exists t a, In (TrajDuration t, a) tr /\ In t ts /\ num a < time) ->
     wp (f r) s (t ++ tr) Q) -> wp (bind (sample ts time b w [] []) f) s t Q.
Proof.
  intros H. rewrite wp_bind. apply exec_wp. intros tr o s' E. apply sample_spec in E. destruct E as (-> & F & r & -> & G). auto.
Qed.

Lemma firstn_slow c v : slow c v -> slow c (firstn (numJoints c) v).
Proof. intros H j Hj. rewrite nth_firstn by assumption. auto. Qed.

Ltac fa := repeat (first [apply Forall_app; split | apply Forall_cons | apply Forall_nil | exact I | assumption]); cbn; auto.

Lemma motions_app4 t0 tr : motions (t0 ++ tr) = motions t0 ++ motions tr. Proof. apply motions_app. Qed.

(** from a quiet beginning [t0] that is good so far *)
Lemma velocity_command_spec c m q cx dx dxd frame s t0 :
  motions t0 = [] -> Forall (good_event c) t0 -> Forall (fast_event c) t0 ->
  (exists a tr', t0 = (GetControlModes, a) :: tr' /\ all_in_mode (numJoints c) m a) ->
  wp (velocity_command c q cx dx dxd frame) s t0 (handled c m s).
Proof.
  intros M G F (a0 & t' & -> & A). set (t0 := (GetControlModes, a0) :: t') in *.
  assert (H0 : forall x a, exists tr', t0 ++ x :: a = (GetControlModes, a0) :: tr') by (intros; cbn; eauto). clearbody t0.
  unfold velocity_command. go. intros e.
  assert (X : forall g, wp (let* cmd := need OutOfBounds (control_law g (vals e) dxd) in
     let* a := ask (DiffInvKin q cmd frame) in if negb (ok a) then Ret false else
     let* b := need OutOfBounds (checkJointVelocities c (vals a)) in if negb b then Ret false else
     let* w := need OutOfBounds (first_n (numJoints c) (vals a)) in let* _ := ask (VelocityMove w) in Ret true) s (t0 ++ [(PoseDiff dx cx, e)]) (handled c m s)).
  { intros g. destruct control_law as [cmd|]; go.
    2:{ split; [fa|]. cbv beta iota. rewrite motions_app, M. reflexivity. }
    intros a. rewrite <- app_assoc. cbn [app]. brk; go.
    2:{ split; [fa|]. cbv beta iota. rewrite motions_app, M. auto. }
    destruct checkJointVelocities as [[]|] eqn:V; go; cbn [negb]; go.
    2,3: split; [fa|]; cbv beta iota; rewrite motions_app, M; auto.
    apply velocities_true in V. destruct V as (V & L).
    destruct first_n as [w|] eqn:W; go.
    2:{ split; [fa|]; cbv beta iota; rewrite motions_app, M; auto. }
    apply first_n_some in W. destruct W as (_ & ->). intros b. rewrite <- app_assoc. cbn [app].
    split; [|split; [|split]].
    - fa. split; [now apply firstn_slow|now apply firstn_length_le].
    - edestruct H0 as (z & ->). eauto.
    - fa.
    - left. split; [reflexivity|]. rewrite motions_app, M. cbn. lia. }
  destruct (vals e) eqn:Ve; go; [apply X|].
  destruct loop_gain; go; [apply X|]. split; [fa|]. cbv beta iota. rewrite motions_app, M. auto.
Qed.
