(** No access out of bounds. *)
From Coq Require Import Reals ZArith List Bool Lra Lia.
From Verif Require Import Kdl KdlFacts Vocab Bcc BccSpec BccFacts BccAll BccFacts2.
Import ListNotations.
Open Scope R_scope.
Local Notation S := Datatypes.S.

(** a calculus that relies on proper answers; [fine e s]: the troubles not excluded *)
Fixpoint safe {A} (P : event -> Prop) (fine : trouble -> st -> Prop) (p : prog A) (s : st) (Q : A -> st -> Prop) : Prop :=
  match p with
  | Ret a => Q a s
  | Stuck e => fine e s
  | Call x k => forall a, P (x, a) -> safe P fine (k a) s Q
  | Get k => safe P fine (k s) s Q
  | Mod f k => safe P fine k (f s) Q
  end.
Lemma safe_sound {A} P fine (p : prog A) : forall s (Q : A -> st -> Prop) tr o s', safe P fine p s Q -> exec p s tr o s' -> Forall P tr ->
  match o with Done a => Q a s' | Trouble e => fine e s' end.
Proof.
  induction p as [a|e|x k IH|k IH|f k IH]; cbn; intros s Q tr o s' W E F.
  - destruct E as (-> & -> & ->). exact W.
  - destruct E as (-> & -> & ->). exact W.
  - destruct E as (a & tr' & -> & E). inversion F; subst. eapply IH; eauto.
  - eapply IH; eauto.
  - eapply IH; eauto.
Qed.
Lemma safe_bind {A B} P fine (p : prog A) (f : A -> prog B) : forall s (Q : B -> st -> Prop),
  safe P fine p s (fun a s' => safe P fine (f a) s' Q) -> safe P fine (bind p f) s Q.
Proof. induction p as [a|e|x k IH|k IH|g k IH]; cbn; intros s Q W; eauto. Qed.
Lemma safe_mono {A} P fine (p : prog A) : forall s (Q Q' : A -> st -> Prop), (forall a s', Q a s' -> Q' a s') -> safe P fine p s Q -> safe P fine p s Q'.
Proof. induction p as [a|e|x k IH|k IH|g k IH]; cbn; intros s Q Q' H W; eauto. Qed.
Lemma safe_fine {A} P (fine fine' : trouble -> st -> Prop) (p : prog A) : (forall e s, fine e s -> fine' e s) -> forall s (Q : A -> st -> Prop), safe P fine p s Q -> safe P fine' p s Q.
Proof. intros H. induction p as [a|e|x k IH|k IH|g k IH]; cbn; intros s Q W; eauto. Qed.

Lemma first_n_some n l : (n <= length l)%nat -> first_n n l = Some (firstn n l).
Proof. intros H. unfold first_n. destruct (Nat.ltb_spec (length l) n); [lia|reflexivity]. Qed.
Lemma fill_length {A} (d : A) n l : length (fill d n l) = n.
Proof. unfold fill. now rewrite map_length, seq_length. Qed.
Lemma nth_error_some {A} (l : list A) j : (j < length l)%nat -> exists x, nth_error l j = Some x.
Proof. intros H. destruct (nth_error l j) eqn:E; [eauto|]. apply nth_error_None in E. lia. Qed.
Lemma dir_total c q v : complete c -> length q = numJoints c -> (numJoints c <= length v)%nat -> exists b, checkJointLimitsDir c q v = Some b.
Proof.
  intros (C1 & C2 & _) L L'. unfold checkJointLimitsDir.
  assert (X : forall j, In j (seq 0 (numJoints c)) -> (j < numJoints c)%nat) by (intros j Hj; apply in_seq in Hj; lia).
  revert X. generalize (seq 0 (numJoints c)) as js. induction js as [|j js IH]; intros X; cbn; [eauto|].
  specialize (IH (fun i Hi => X i (or_intror Hi))). pose proof (X j (or_introl eq_refl)) as Hj.
  destruct (nth_error_some q j) as (x & ->); [lia|]. destruct (nth_error_some (qMin c) j) as (lo & ->); [lia|].
  destruct (nth_error_some (qMax c) j) as (hi & ->); [lia|]. destruct (nth_error_some v j) as (w & ->); [lia|].
  destruct orb; [|exact IH]. destruct Z.eqb; eauto.
Qed.

Section Safe.
Variables (c : cfg) (k : nat) (fine : trouble -> st -> Prop).
Hypothesis CC : complete c.
Hypothesis FG : forall e s, e = NotFinite -> cmcPeriodMs s = 0%Z -> fine e s.
Notation ok_ := (safe (proper c k) fine).

Lemma s_check m s (Q : bool -> st -> Prop) : (forall b, Q b s) -> ok_ (checkControlModes c m) s Q.
Proof. intros H a _. apply H. Qed.
Lemma s_retries m n : forall s (Q : bool -> st -> Prop), (forall b, Q b s) -> ok_ (mode_retries c m n) s Q.
Proof.
  induction n as [|n IH]; intros s Q H; cbn [mode_retries]; apply safe_bind; intros a _; cbn [safe]; apply safe_bind; apply s_check; intros b;
    destruct b; cbn [safe]; auto.
Qed.
Lemma s_modes m s (Q : bool -> st -> Prop) : (forall b, Q b s) -> ok_ (setControlModes c m) s Q.
Proof.
  intros H. unfold setControlModes. apply safe_bind. intros a _. cbn [safe]. destruct (ok a); cbn [negb]; [|apply H].
  apply safe_bind. destruct filter; [cbn [safe negb]; apply s_retries, H|]. apply safe_bind. intros b _. cbn [safe]. destruct (ok b); cbn [negb]; [apply s_retries, H|apply H].
Qed.
Lemma s_stop s (Q : bool -> st -> Prop) : Q true (set_trajectories [] (setCurrentState VOCAB_CC_NOT_CONTROLLING s)) -> ok_ (stopControl c) s Q.
Proof.
  intros H. unfold stopControl. cbn [bind modify safe]. apply safe_bind, s_modes. intros b. cbn [bind ask modify safe]. intros a _. exact H.
Qed.
Lemma s_ask (x : call) s (Q : answer -> st -> Prop) : (forall a, proper c k (x, a) -> Q a s) -> ok_ (ask x) s Q.
Proof. intros H a Pa. now apply H. Qed.
Lemma s_encoders s (Q : option (list R * list R * list R) -> st -> Prop) :
  Q None s -> (forall q v w, length q = numJoints c -> Q (Some (q, v, w)) s) -> ok_ (read_encoders c) s Q.
Proof.
  intros H1 H2. unfold read_encoders. apply safe_bind, s_ask. intros a _. destruct (ok a); cbn [negb]; [|exact H1].
  apply safe_bind, s_ask. intros b _. destruct (ok b); cbn [negb]; [|exact H1]. apply safe_bind, s_ask. intros d _. destruct (ok d); cbn [negb]; [|exact H1].
  apply H2, fill_length.
Qed.
Lemma s_sample time b w s : forall ts x xd (Q : option (list R * list R) -> st -> Prop), Q None s ->
  (forall x' xd', length x' = (length x + 6 * length ts)%nat -> (w = true -> length xd' = (length xd + 6 * length ts)%nat) -> Q (Some (x', xd')) s) -> ok_ (sample ts time b w x xd) s Q.
Proof.
  induction ts as [|t ts IH]; intros x xd Q H1 H2; cbn [sample].
  - apply H2; cbn; lia.
  - apply safe_bind.
    assert (X : forall o : bool, ok_ (if o then Ret None else let* p := ask (TrajPos t time) in
        if w then let* v := ask (TrajVel t time) in sample ts time b w (x ++ vals p) (xd ++ vals v) else sample ts time b w (x ++ vals p) xd) s Q).
    { intros [|]; [exact H1|]. apply safe_bind, s_ask. intros p Pp. cbn in Pp. destruct w.
      - apply safe_bind, s_ask. intros v Pv. cbn in Pv. apply IH; [exact H1|]. intros x' xd' L1 L2. specialize (L2 eq_refl). apply H2; rewrite app_length in *; cbn [length]; lia.
      - apply IH; [exact H1|]. intros x' xd' L1 L2. apply H2; [rewrite app_length in *; cbn [length]; lia|discriminate]. }
    destruct b; [|apply X]. apply safe_bind, s_ask. intros d _. cbn [safe]. apply X.
Qed.
Lemma control_some g : forall e d, (length e <= length d)%nat -> exists r, control_law g e d = Some r.
Proof.
  induction e as [|x e IH]; intros d H; cbn; [eauto|]. destruct d as [|y d]; cbn in *; [lia|]. destruct (IH d) as (r & ->); [lia|eauto].
Qed.
Lemma s_velocity q cx dx dxd f s (Q : bool -> st -> Prop) : length dxd = (6 * k)%nat -> (forall b, Q b s) -> ok_ (velocity_command c q cx dx dxd f) s Q.
Proof.
  intros L H. unfold velocity_command. apply safe_bind, s_ask. intros e Pe. cbn in Pe. cbn [bind look safe].
  assert (X : forall g, ok_ (let* cmd := need OutOfBounds (control_law g (vals e) dxd) in let* a := ask (DiffInvKin q cmd f) in
     if negb (ok a) then Ret false else let* b := need OutOfBounds (checkJointVelocities c (vals a)) in
     if negb b then Ret false else let* w := need OutOfBounds (first_n (numJoints c) (vals a)) in let* _ := ask (VelocityMove w) in Ret true) s Q).
  { intros g. destruct (control_some g (vals e) dxd) as (r & ->); [lia|]. cbn [need bind]. apply safe_bind, s_ask. intros a Pa. cbn in Pa.
    destruct (ok a); cbn [negb]; [|apply H]. specialize (Pa eq_refl).
    destruct (checkJointVelocities_ok c (vals a) CC) as (b & -> & _); [lia|]. cbn [need bind]. destruct b; cbn [negb]; [|apply H].
    rewrite first_n_some by lia. cbn [need bind ask safe]. intros a' _. apply H. }
  destruct (vals e) eqn:E; [cbn [bind]; rewrite <- E in *; apply X|]. rewrite <- E in *. clear E.
  unfold loop_gain. destruct (Z.eqb_spec (cmcPeriodMs s) 0); cbn [need bind]; [cbn [safe]; now apply FG|apply X].
Qed.

(** what holds between operations *)
Definition sound (s : st) : Prop :=
  (currentState s = VOCAB_CC_MOVJ_CONTROLLING -> length (vmoStored s) = numJoints c) /\
  (currentState s = VOCAB_CC_MOVL_CONTROLLING \/ currentState s = VOCAB_CC_MOVV_CONTROLLING -> length (trajectories s) = k).
Lemma sound_off s : currentState s = VOCAB_CC_NOT_CONTROLLING -> sound s.
Proof. intros H. split; rewrite H; [discriminate|intros [X|X]; discriminate]. Qed.

Lemma s_body s (Q : bool -> st -> Prop) : sound s ->
  (forall b s', sound s' -> Q b s') -> ok_ (cycle_body c (currentState s)) s Q.
Proof.
  intros I H. unfold cycle_body. apply safe_bind, s_encoders.
  { cbn [bind modify look safe]. apply H. exact I. }
  intros q v w Lq. cbn [bind modify safe]. destruct (checkJointLimits_ok c q CC Lq) as (b & -> & _). cbn [need bind].
  set (s1 := set_encoderErrors 0 s). assert (I1 : sound s1) by exact I.
  assert (H' : forall b, Q b s1) by (intros; now apply H).
  destruct b; cbn [negb]; [|apply H'].
  destruct (Z.eqb_spec (currentState s) VOCAB_CC_MOVJ_CONTROLLING) as [E|_].
  { unfold handleMovj. apply safe_bind, s_check. intros b. destruct b; cbn [negb]; [|apply H']. apply safe_bind, s_ask. intros a _.
    destruct (ok a); cbn [negb]; [|apply H']. destruct (done a); [|apply H']. cbn [bind modify look safe].
    rewrite first_n_some by (cbn; rewrite (proj1 I E); lia). cbn [need bind ask safe]. intros a' _. apply H, sound_off. reflexivity. }
  destruct (Z.eqb_spec (currentState s) VOCAB_CC_MOVL_CONTROLLING) as [E|_].
  { pose proof (proj2 I (or_introl E)) as K. destruct (usePosdMovl c).
    - unfold handleMovlPosd. apply safe_bind, s_check. intros b. destruct b; cbn [negb]; [|apply H']. apply safe_bind, s_ask. intros a _. cbn [bind look safe].
      apply safe_bind, s_sample.
      + apply safe_bind, s_stop. apply H, sound_off. reflexivity.
      + intros x' xd' _ _. apply safe_bind, s_ask. intros r Pr. cbn in Pr. destruct (ok r); cbn [negb]; [|apply H'].
        rewrite first_n_some by (rewrite (Pr eq_refl); lia). cbn [need bind ask safe]. intros a' _. apply H'.
    - unfold handleMovlVel. apply safe_bind, s_check. intros b. destruct b; cbn [negb]; [|apply H']. apply safe_bind, s_ask. intros a _. cbn [bind look safe].
      apply safe_bind, s_sample.
      + apply safe_bind, s_stop. apply H, sound_off. reflexivity.
      + intros x' xd' _ L. specialize (L eq_refl). apply safe_bind, s_ask. intros r _. destruct (ok r); cbn [negb]; [|apply H'].
        apply s_velocity; [cbn in L; rewrite L; cbn [s1 set_encoderErrors trajectories]; rewrite K; lia|apply H']. }
  destruct (Z.eqb_spec (currentState s) VOCAB_CC_MOVV_CONTROLLING) as [E|_].
  { pose proof (proj2 I (or_intror E)) as K. unfold handleMovv. apply safe_bind, s_check. intros b. destruct b; cbn [negb]; [|apply H'].
    apply safe_bind, s_ask. intros a _. cbn [bind look safe]. apply safe_bind, s_ask. intros r _. destruct (ok r); cbn [negb]; [|apply H']. cbn [bind look safe].
    apply safe_bind, s_sample; [apply H'|]. intros x' xd' _ L. specialize (L eq_refl). cbn [bind look safe].
    apply s_velocity; [cbn in L; rewrite L; cbn [s1 set_encoderErrors trajectories]; rewrite K; lia|apply H']. }
  destruct (Z.eqb (currentState s) VOCAB_CC_GCMP_CONTROLLING).
  { unfold handleGcmp. apply safe_bind, s_check. intros b. destruct b; cbn [negb]; [|apply H']. apply safe_bind, s_ask. intros r Pr. cbn in Pr.
    destruct (ok r); cbn [negb]; [|apply H']. rewrite first_n_some by (rewrite (Pr eq_refl); lia). cbn [need bind ask safe]. intros a' _. apply H'. }
  destruct (Z.eqb (currentState s) VOCAB_CC_FORC_CONTROLLING); [|apply H'].
  unfold handleForc. apply safe_bind, s_check. intros b. destruct b; cbn [negb]; [|apply H']. cbn [bind look safe]. apply safe_bind, s_ask. intros r Pr. cbn in Pr.
  destruct (ok r); cbn [negb]; [|apply H']. rewrite first_n_some by (rewrite (Pr eq_refl); lia). cbn [need bind ask safe]. intros a' _. apply H'.
Qed.
Lemma s_run s (Q : Datatypes.unit -> st -> Prop) : sound s -> (forall u s', sound s' -> Q u s') -> ok_ (run c) s Q.
Proof.
  intros I H. unfold run. cbn [bind look safe]. destruct Z.eqb; [now apply H|]. apply safe_bind, s_body; [exact I|]. intros b s' I'.
  destruct b; [now apply H|]. cbn [bind modify safe]. apply safe_bind, s_stop. apply H, sound_off. reflexivity.
Qed.

(** *** Commands *)
Ltac deny := try (match goal with |- context [if ?b then _ else _] => destruct b; cbn [negb] end).
Lemma s_stat t s (Q : option (list R * Z * R) -> st -> Prop) :
  Q None s -> (forall x v u, length x = (6 * k)%nat -> Q (Some (x, v, u)) s) -> ok_ (stat c t) s Q.
Proof.
  intros H1 H2. unfold stat. apply safe_bind, s_ask. intros a _. destruct (ok a); cbn [negb]; [|exact H1]. apply safe_bind.
  assert (X : forall u, ok_ (let* x := ask (FwdKin (fill 0 (numJoints c) (vals a))) in if negb (ok x) then Ret None else
     let* v := look currentState in Ret (Some (vals x, v, u))) s Q).
  { intros u. apply safe_bind, s_ask. intros x Px. cbn in Px. destruct (ok x); cbn [negb]; [|exact H1]. cbn [bind look safe]. apply H2, (Px eq_refl). }
  destruct t; [|apply X]. destruct (preciselyTimed c); apply safe_bind, s_ask; intros u _; cbn [safe]; apply X.
Qed.
Lemma s_movj xd s (Q : bool -> st -> Prop) : sound s -> (forall b s', sound s' -> Q b s') -> ok_ (movj c xd) s Q.
Proof.
  intros I H. assert (H' : forall b, Q b s) by (intros; now apply H).
  unfold movj. apply safe_bind, s_ask. intros a _. destruct (ok a); cbn [negb]; [|apply H']. cbn [bind look safe]. apply safe_bind, s_ask. intros r Pr. cbn in Pr.
  destruct (ok r); cbn [negb]; [|apply H']. specialize (Pr eq_refl).
  destruct (isochronous_total c (fill 0 (numJoints c) (vals a)) (vals r)) as ((v & m) & ->); [apply CC|apply fill_length|lia|]. cbn [need bind fst snd].
  destruct m; [|apply H']. apply safe_bind, s_ask. intros g _. cbn [bind modify safe]. set (s1 := set_vmoStored _ s).
  assert (I1 : sound s1) by (split; [intros _; apply fill_length|apply I]). assert (H1 : forall b, Q b s1) by (intros; now apply H).
  destruct (ok g); cbn [negb]; [|apply H1]. apply safe_bind, s_ask. intros e _. destruct (ok e); cbn [negb]; [|apply H1].
  apply safe_bind, s_modes. intros b. destruct b; cbn [negb]; [|apply H1]. rewrite first_n_some by lia. cbn [need bind].
  apply safe_bind, s_ask. intros p _. destruct (ok p); cbn [negb]; [|apply H1]. cbn [bind modify safe]. apply H.
  split; [intros _; apply fill_length|intros [X|X]; discriminate].
Qed.
Lemma add_some : forall xd x, (length xd <= length x)%nat -> exists r, add_to x xd = Some r.
Proof. induction xd as [|d xd IH]; intros [|y x] H; cbn in *; eauto; [lia|]. destruct (IH x) as (r & ->); [lia|eauto]. Qed.
Lemma s_relj xd s (Q : bool -> st -> Prop) : length xd = (6 * k)%nat -> sound s -> (forall b s', sound s' -> Q b s') -> ok_ (relj c xd) s Q.
Proof.
  intros L I H. unfold relj. cbn [bind look safe]. destruct Z.eqb; [now apply s_movj|]. apply safe_bind, s_stat; [now apply H|].
  intros x v u Lx. destruct (add_some xd x) as (r & ->); [lia|]. cbn [need bind]. now apply s_movj.
Qed.
Lemma build_some mk from what : forall is, (forall i, In i is -> (i < k)%nat) -> length from = (6 * k)%nat -> length what = (6 * k)%nat ->
  exists r, build mk from what is = Some r /\ length r = length is.
Proof.
  induction is as [|i is IH]; intros H L1 L2; cbn [build]; [eauto|].
  pose proof (H i (or_introl eq_refl)). unfold six. destruct (Nat.ltb_spec (length from) (6 * (i + 1))); [lia|]. destruct (Nat.ltb_spec (length what) (6 * (i + 1))); [lia|].
  destruct IH as (r & -> & Lr); auto; [intros; apply H; now right|]. eexists; split; [reflexivity|]. cbn. now rewrite Lr.
Qed.
Lemma s_maxdur s : forall ts m (Q : R -> st -> Prop), (forall r, Q r s) -> ok_ (max_duration ts m) s Q.
Proof. induction ts as [|t ts IH]; intros m Q H; cbn [max_duration]; [apply H|]. apply safe_bind, s_ask. intros; now apply IH. Qed.
Lemma s_positions time s : forall ts x (Q : list R -> st -> Prop), (forall r, Q r s) -> ok_ (positions ts time x) s Q.
Proof. induction ts as [|t ts IH]; intros x Q H; cbn [positions]; [apply H|]. apply safe_bind, s_ask. intros; now apply IH. Qed.
Lemma minus_some : forall a b n, length a = length b -> (length a <= n)%nat -> exists r, minus a b n = Some r /\ length r = length a.
Proof.
  induction a as [|x a IH]; intros b n H1 H2; cbn; [eauto|]. destruct b as [|y b]; [discriminate|]. destruct n as [|n]; cbn in *; [lia|].
  destruct (IH b n) as (r & -> & L); [lia|lia|]. eexists; split; [reflexivity|]. cbn. now rewrite L.
Qed.
Lemma s_failfast ts s (Q : bool -> st -> Prop) : (numJoints c <= 6 * k)%nat -> (forall s', fine Endless s') -> (forall b, Q b s) ->
  forall fuel interval step dur old buf, length old = numJoints c -> length buf = (6 * k)%nat -> ok_ (failfast_loop c ts fuel interval step dur old buf) s Q.
Proof.
  intros N FE H. induction fuel as [|fuel IH]; intros interval step dur old buf Lo Lb; cbn [failfast_loop]; destruct Rltb; try apply H; [apply FE|].
  apply safe_bind, s_positions. intros x. apply safe_bind, s_ask. intros a Pa. cbn in Pa. destruct (ok a); cbn [negb]; [|apply H]. specialize (Pa eq_refl).
  destruct (minus_some (vals a) old (length buf)) as (d & -> & Ld); [lia|lia|]. cbn [need bind].
  destruct (checkJointLimits_ok c (vals a) CC Pa) as (b & -> & _). cbn [need bind]. destruct b; cbn [negb]; [|apply H].
  assert (L : length (overwrite buf d) = (6 * k)%nat) by (unfold overwrite; rewrite app_length, skipn_length; lia).
  destruct (checkJointVelocities_ok c (overwrite buf d) CC) as (b & -> & _); [lia|]. cbn [need bind]. destruct b; cbn [negb]; [|apply H].
  now apply IH.
Qed.
Lemma s_movl fuel xd s (Q : bool -> st -> Prop) : length xd = (6 * k)%nat -> (enableFailFast c = true -> (numJoints c <= 6 * k)%nat) -> (forall s', fine Endless s') -> sound s ->
  (forall b s', sound s' -> Q b s') -> ok_ (movl c fuel xd) s Q.
Proof.
  intros L N FE I H. assert (H' : forall b, Q b s) by (intros; now apply H).
  unfold movl. apply safe_bind, s_ask. intros a _. destruct (ok a); cbn [negb]; [|apply H']. apply safe_bind, s_ask. intros x Px. cbn in Px.
  destruct (ok x); cbn [negb]; [|apply H']. specialize (Px eq_refl). cbn [bind look safe]. apply safe_bind.
  assert (X : forall o, length o = (6 * k)%nat -> ok_ (modify (set_trajectories []) ;; let* seconds := look duration in
      let* ts := need OutOfBounds (build (fun f t => Line f t seconds) (vals x) o (seq 0 (length xd / 6))) in
      modify (set_trajectories ts) ;; let* fine := (if enableFailFast c then doFailFastChecks c fuel (fill 0 (numJoints c) (vals a)) else Ret true) in
      if negb fine then Ret false else
      let* m := setControlModes c (if usePosdMovl c then VOCAB_CM_POSITION_DIRECT else VOCAB_CM_VELOCITY) in
      if negb m then Ret false else let* now := ask Now in modify (set_startTime (num now)) ;; modify (set_cmcSuccess true) ;;
      modify (setCurrentState VOCAB_CC_MOVL_CONTROLLING) ;; Ret true) s Q).
  { intros o Lo. cbn [bind modify look safe]. rewrite L, Nat.mul_comm, Nat.div_mul by lia.
    destruct (build_some (fun f t => Line f t (duration (set_trajectories [] s))) (vals x) o (seq 0 k)) as (ts & -> & Lt); auto.
    { intros i Hi. apply in_seq in Hi. lia. }
    rewrite seq_length in Lt. cbn [need bind modify safe]. set (s1 := set_trajectories ts _).
    assert (I1 : sound s1) by (split; [apply I|intros _; exact Lt]). assert (H1 : forall b, Q b s1) by (intros; now apply H).
    apply safe_bind.
    assert (Y : forall b, ok_ (if negb b then Ret false else let* m := setControlModes c (if usePosdMovl c then VOCAB_CM_POSITION_DIRECT else VOCAB_CM_VELOCITY) in
      if negb m then Ret false else let* now := ask Now in modify (set_startTime (num now)) ;; modify (set_cmcSuccess true) ;;
      modify (setCurrentState VOCAB_CC_MOVL_CONTROLLING) ;; Ret true) s1 Q).
    { intros b. destruct b; cbn [negb]; [|apply H1]. apply safe_bind, s_modes. intros m. destruct m; cbn [negb]; [|apply H1].
      apply safe_bind, s_ask. intros n _. cbn [bind modify safe]. apply H. split; [discriminate|intros _; exact Lt]. }
    destruct (enableFailFast c); [|apply Y]. specialize (N eq_refl). unfold doFailFastChecks. cbn [bind look safe]. destruct (trajectories s1) eqn:E; [apply Y|]. rewrite <- E.
    apply safe_bind, s_ask. intros p _. apply safe_bind, s_ask. intros n Pn. cbn in Pn. rewrite Pn. cbn [hd]. rewrite Nat2Z.id.
    apply safe_bind, s_maxdur. intros d. apply s_failfast; auto; [apply fill_length|]. unfold zeros. rewrite repeat_length. lia. }
  destruct (Z.eqb (referenceFrame s) TCP_FRAME); [|cbn [safe]; now apply X].
  apply safe_bind, s_ask. intros r Pr. cbn in Pr. cbn [safe]. destruct (ok r); [apply X, (Pr eq_refl)|apply H'].
Qed.
Lemma s_movv xd s (Q : bool -> st -> Prop) : length xd = (6 * k)%nat -> sound s -> (forall b s', sound s' -> Q b s') -> ok_ (movv c xd) s Q.
Proof.
  intros L I H. assert (H' : forall b, Q b s) by (intros; now apply H).
  unfold movv. apply safe_bind, s_ask. intros a _. destruct (ok a); cbn [negb]; [|apply H']. apply safe_bind, s_ask. intros x Px. cbn in Px.
  destruct (ok x); cbn [negb]; [|apply H']. specialize (Px eq_refl). cbn [bind modify safe].
  rewrite L, Nat.mul_comm, Nat.div_mul by lia.
  edestruct build_some as (ts & Et & Lt); [| | |rewrite Et]; auto.
  { intros i Hi. apply in_seq in Hi. lia. }
  rewrite seq_length in Lt. cbn [need bind modify safe]. set (s1 := set_trajectories ts _).
  assert (I1 : sound s1) by (split; [apply I|intros _; exact Lt]). assert (H1 : forall b, Q b s1) by (intros; now apply H).
  apply safe_bind, s_modes. intros m. destruct m; cbn [negb]; [|apply H1]. apply safe_bind, s_ask. intros n _. cbn [bind modify safe].
  apply H. split; [discriminate|intros _; exact Lt].
Qed.
End Safe.

Lemma s_set c k (fine : trouble -> st -> Prop) key v s (Q : bool -> st -> Prop) : (forall s, fine BadCast s) -> sound c k s ->
  (forall b s', sound c k s' -> Q b s') -> safe (proper c k) fine (setParameter c key v) s Q.
Proof.
  intros FB I H. assert (H' : forall b, Q b s) by (intros; now apply H).
  unfold setParameter. cbn [bind look safe]. destruct (Z.eqb_spec (currentState s) VOCAB_CC_NOT_CONTROLLING) as [E|_]; cbn [negb]; [|apply H'].
  assert (O : forall b s', currentState s' = VOCAB_CC_NOT_CONTROLLING -> Q b s') by (intros; now apply H, sound_off).
  destruct Z.eqb. { destruct Rltb; [apply H'|]. now apply O. }
  destruct Z.eqb. { destruct Rleb; [apply H'|]. now apply O. }
  destruct Z.eqb. { apply safe_bind. intros a _. cbn [safe]. destruct (ok a); cbn [negb]; [|apply H']. destruct to_int; [now apply O|apply FB]. }
  destruct Z.eqb. { destruct Rleb; [apply H'|]. destruct to_int; [now apply O|apply FB]. }
  destruct Z.eqb. { destruct andb; [apply H'|]. destruct to_int; [now apply O|apply FB]. }
  destruct Z.eqb; [|apply H']. destruct to_int as [z|]; [|apply FB]. cbn [need bind]. apply safe_bind. unfold presetStreamingCommand. cbn [bind modify safe].
  assert (X : forall b : bool, safe (proper c k) fine (if negb b then Ret false else modify (set_streaming z) ;; Ret true) (setCurrentState VOCAB_CC_NOT_CONTROLLING s) Q).
  { intros [|]; now apply O. }
  destruct orb; [apply s_modes, X|]. destruct Z.eqb; [apply s_modes, X|]. destruct Z.eqb; [apply s_modes, X|]. apply (X false).
Qed.
Lemma s_setall c k (fine : trouble -> st -> Prop) : (forall s, fine BadCast s) -> forall ps s b (Q : bool -> st -> Prop), sound c k s ->
  (forall b s', sound c k s' -> Q b s') -> safe (proper c k) fine (set_all c ps b) s Q.
Proof.
  intros FB. induction ps as [|[key v] ps IH]; intros s b Q I H; cbn [set_all]; [now apply H|]. apply safe_bind, s_set; auto.
Qed.
Lemma s_wait c k (fine : trouble -> st -> Prop) fuel timeout start : (forall s, fine Endless s) -> forall v s (Q : Datatypes.unit -> st -> Prop), sound c k s ->
  (forall s', sound c k s' -> Q tt s') -> safe (proper c k) fine (wait_loop c fuel timeout start v) s Q.
Proof.
  intros FE. induction fuel as [|fuel IH]; intros v s Q I H; cbn [wait_loop]; destruct Z.eqb; try (now apply H); [apply FE|].
  apply safe_bind.
  assert (X : forall late : bool, safe (proper c k) fine (if late then let* _ := stopControl c in Ret tt else
     let* p := look waitPeriodMs in let* _ := ask (Sleep (IZR p / 1000)) in let* state' := look currentState in wait_loop c fuel timeout start state') s Q).
  { intros [|]; [apply safe_bind, s_stop; apply H, sound_off; reflexivity|]. cbn [bind look safe ask]. intros a _. now apply IH. }
  destruct Reqb; [apply X|]. apply safe_bind, s_ask. intros a _. apply X.
Qed.

Lemma op_safe c k o s tr oc s' : complete c -> (enableFailFast c = true -> (numJoints c <= 6 * k)%nat) -> sound c k s -> six_each k o ->
  Forall (proper c k) tr -> exec (do_op c o) s tr oc s' -> match oc with Done _ => sound c k s' | Trouble e => excused o e s' end.
Proof.
  intros CC N I Six F E. revert F. revert E.
  cut (safe (proper c k) (excused o) (do_op c o) s (fun _ s' => sound c k s')).
  { intros W E F. exact (safe_sound _ _ _ _ _ _ _ _ W E F). }
  destruct o; cbn [do_op].
  - apply safe_bind, s_stat; cbn [safe]; auto.
  - unfold inv. apply safe_bind, safe_bind, s_ask. intros a _. destruct (ok a); cbn [negb]; [|exact I]. cbn [bind look safe]. apply safe_bind, s_ask.
    intros r _. destruct (ok r); exact I.
  - apply s_movj; auto.
  - apply s_relj; auto.
  - apply s_movl; auto. intros; exact Logic.I.
  - apply s_movv; auto.
  - unfold gcmp. apply safe_bind, s_modes. intros [|]; cbn [negb]; [|exact I]. cbn [bind modify safe]. split; [discriminate|intros [X|X]; discriminate].
  - unfold forc. cbn [bind look safe]. destruct Z.eqb; [exact I|]. cbn [bind modify safe]. apply safe_bind, s_modes. intros [|]; cbn [negb]; [|exact I].
    cbn [bind modify safe]. split; [discriminate|intros [X|X]; discriminate].
  - apply s_stop. apply sound_off. reflexivity.
  - unfold wait. cbn [bind look safe]. destruct andb; [exact I|]. apply safe_bind, s_ask. intros a _. apply safe_bind, s_wait; [intros; exact Logic.I|exact I|]. intros s1 I1. exact I1.
  - unfold tool. apply safe_bind, s_ask. intros a _. destruct (ok a); [|exact I]. cbn [negb]. apply safe_bind, s_ask. intros b _. destruct (ok b); exact I.
  - exact I.
  - unfold pose. apply safe_bind. cbn [bind look safe]. destruct (Z.eqb (currentState s)); cbn [negb]; [|exact I]. cbn [bind look safe].
    destruct (negb (Z.eqb (streamingCommand s) VOCAB_CC_POSE) && negb (Z.eqb (streamingCommand s) VOCAB_CC_MOVI)); [exact I|]. apply safe_bind, s_check. intros [|]; cbn [negb]; [|exact I].
    apply safe_bind, s_ask. intros a _. destruct (ok a); cbn [negb]; [|exact I]. cbn [bind look safe]. apply safe_bind, s_ask. intros r Pr. cbn in Pr. destruct (ok r); cbn [negb]; [|exact I].
    specialize (Pr eq_refl). rewrite first_n_some by lia. cbn [need bind]. assert (L : length (firstn (numJoints c) (vals r)) = numJoints c) by (rewrite firstn_length; lia).
    destruct (minus_some (firstn (numJoints c) (vals r)) (fill 0 (numJoints c) (vals a)) (numJoints c)) as (d & -> & Ld); [rewrite fill_length; lia|lia|]. cbn [need bind].
    destruct (dir_total c (fill 0 (numJoints c) (vals a)) d CC (fill_length _ _ _)) as (b & ->); [lia|]. cbn [need bind]. destruct b; cbn [negb]; [|exact I].
    apply safe_bind, s_ask. intros; exact I.
  - unfold twist. apply safe_bind. cbn [bind look safe]. destruct (Z.eqb (currentState s)); cbn [negb]; [|exact I]. cbn [bind look safe]. destruct (Z.eqb (streamingCommand s)); cbn [negb]; [|exact I]. apply safe_bind, s_check. intros [|]; cbn [negb]; [|exact I].
    apply safe_bind.
    assert (X : forall b : bool, safe (proper c k) (excused (OTwist xdot)) (if b then Ret tt else let* _ := ask (VelocityMove (zeros (numJoints c))) in Ret tt) s (fun _ s' => safe (proper c k) (excused (OTwist xdot)) (Ret true) s' (fun _ s'' => sound c k s''))).
    { intros [|]; [exact I|]. intros a _. exact I. }
    apply safe_bind, s_ask. intros a _. destruct (ok a); cbn [negb]; [|apply X]. cbn [bind look safe]. apply safe_bind, s_ask. intros r Pr. cbn in Pr.
    destruct (ok r); cbn [negb]; [|apply X]. specialize (Pr eq_refl).
    destruct (dir_total c (fill 0 (numJoints c) (vals a)) (vals r) CC (fill_length _ _ _)) as (b & ->); [lia|]. cbn [need bind]. destruct b; cbn [negb]; [|apply X].
    destruct (checkJointVelocities_ok c (vals r) CC) as (b & -> & _); [lia|]. cbn [need bind]. destruct b; cbn [negb]; [|apply X].
    rewrite first_n_some by lia. cbn [need bind]. apply safe_bind, s_ask. intros w _. apply X.
  - unfold wrench. apply safe_bind. cbn [bind look safe]. destruct (Z.eqb (currentState s)); cbn [negb]; [|exact I]. cbn [bind look safe]. destruct (Z.eqb (streamingCommand s)); cbn [negb]; [|exact I]. apply safe_bind, s_check. intros [|]; cbn [negb]; [|exact I].
    apply safe_bind.
    assert (X : forall b : bool, safe (proper c k) (excused (OWrench w)) (if b then Ret tt else let* _ := ask (SetRefTorques (zeros (numJoints c))) in Ret tt) s (fun _ s' => safe (proper c k) (excused (OWrench w)) (Ret true) s' (fun _ s'' => sound c k s''))).
    { intros [|]; [exact I|]. intros a _. exact I. }
    apply safe_bind, s_encoders; [apply X|]. intros q v a Lq. destruct (checkJointLimits_ok c q CC Lq) as (b & -> & _). cbn [need bind]. destruct b; cbn [negb]; [|apply X].
    cbn [bind look safe]. apply safe_bind, s_ask. intros r Pr. cbn in Pr. destruct (ok r); cbn [negb]; [|apply X]. rewrite first_n_some by (rewrite (Pr eq_refl); lia).
    cbn [need bind]. apply safe_bind, s_ask. intros u _. apply X.
  - apply s_set; auto; intros; exact Logic.I.
  - cbn. exact I.
  - unfold setParameters. cbn [bind look safe]. destruct negb; [exact I|]. apply s_setall; auto; intros; exact Logic.I.
  - exact I.
  - apply safe_bind, s_run; auto. intros e s0 -> H. exact H.
Qed.
Lemma history_sound c k s h s' : complete c -> (enableFailFast c = true -> (numJoints c <= 6 * k)%nat) -> sound c k s -> history c s h s' ->
  Forall (fun e => six_each k (fst (fst e)) /\ Forall (proper c k) (snd (fst e))) h -> sound c k s'.
Proof.
  intros CC N I H. induction H as [s|s s1 s2 o tr b h E H IH]; intros F; [exact I|]. inversion F as [|? ? [F1 F2] F3]; subst. cbn in *.
  apply IH; auto. exact (op_safe c k o s tr (Done b) s1 CC N I F1 F2 E).
Qed.
Lemma history_safe c k s0 h s o tr e s' : complete c -> (enableFailFast c = true -> (numJoints c <= 6 * k)%nat) ->
  currentState s0 = VOCAB_CC_NOT_CONTROLLING -> history c s0 h s ->
  Forall (fun e => six_each k (fst (fst e)) /\ Forall (proper c k) (snd (fst e))) h -> six_each k o -> Forall (proper c k) tr ->
  exec (do_op c o) s tr (Trouble e) s' -> excused o e s'.
Proof.
  intros CC N S0 H F Six Ft E. exact (op_safe c k o s tr (Trouble e) s' CC N (history_sound c k s0 h s CC N (sound_off c k s0 S0) H F) Six Ft E).
Qed.
