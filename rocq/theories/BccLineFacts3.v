(** Proofs about movements with a given velocity. *)
From Coq Require Import Reals ZArith List Bool Lra Lia.
From Verif Require KinRep.
From Verif Require Import Kdl KdlFacts KdlRot KdlRotFacts KinRepSpec AsibotSpec KdlTraj LineSpec LineFacts2 LineFacts3 Vocab Bcc BccSpec BccKdl BccLineSpec
  BccFacts BccAll BccFacts2 BccFacts3 BccFacts4 BccFacts6 BccFacts7 BccLineFacts BccLineFacts2.
Import ListNotations.
Open Scope R_scope.
Local Notation S := Datatypes.S.
Local Notation length := List.length.
Local Notation frameToVector := KinRep.frameToVector.
Local Notation twistToVector := KinRep.twistToVector.

Definition movv_done (n : nat) (s : st) (xd : list R) (tr : list event) (o : outcome bool) (s1 : st) : Prop :=
  o = Done true -> exists from ts now, starts_at n tr from /\
    build Along from xd (seq 0 (length xd / 6)) = Some ts /\
    In (Now, now) tr /\ trajectories s1 = ts /\ movementStartTime s1 = num now /\ currentState s1 = VOCAB_CC_MOVV_CONTROLLING /\
    gain s1 = gain s /\ cmcPeriodMs s1 = cmcPeriodMs s /\ referenceFrame s1 = referenceFrame s.
Lemma movv_built c xd s tr o s1 : exec (movv c xd) s tr o s1 -> movv_done (numJoints c) s xd tr o s1.
Proof.
  apply wp_sound. assert (N : forall tr o s1, o <> Done true -> movv_done (numJoints c) s xd tr o s1) by (intros ? ? ? H1 H2; contradiction).
  unfold movv. go. intros a. brk; go; [|now apply N]. intros y. brk; go; [|now apply N].
  destruct build as [ts|] eqn:B; go; [|now apply N].
  apply wp_modes. intros tm b _. destruct b; cbn [negb]; go; [|now apply N]. intros now _.
  exists (vals y), ts, now. split.
  - exists (fill 0 (numJoints c) (vals a)), y. split; [apply filled; [rewrite !in_app_iff; cbn; auto 9|auto]|]. split; [rewrite !in_app_iff; cbn; auto 9|]. auto.
  - split; [exact B|]. split; [rewrite !in_app_iff; cbn; auto 9|]. repeat split.
Qed.

Lemma going_rigid a w t : rigid a -> rigid (going a w t).
Proof. intros R. unfold rigid, going. cbn [fM]. apply rot_mm; [|exact R]. unfold Rot. apply Rot2_rot. apply normalize_unit. Qed.

Section Samples.
Variables (from xd : list R) (ts : list traj) (tr : list event) (u : R) (k : nat).
Hypothesis B : build Along from xd (seq 0 k) = Some ts.
Hypothesis AK : Forall as_kdl tr.
Hypothesis VS : forall i, (i < k)%nat -> visible (twist_at xd i) /\ u * speed (twist_at xd i) <= 10.
Hypothesis U0 : 0 <= u.
Lemma samples_going ys : Forall2 (pos_asked tr u) ts ys ->
  Forall2 (fun h y => y = frameToVector h) (map (fun i => going (pose_at from i) (twist_at xd i) u) (seq 0 k)) ys.
Proof.
  intros F. pose proof (F2_map _ _ _ _ _ (build_all _ _ _ _ _ B) F) as G. clear B F.
  assert (R : forall i, In i (seq 0 k) -> (i < k)%nat) by (intros i I; apply in_seq in I; lia). revert R G. generalize (seq 0 k). intros is R G.
  induction G as [|i y is ys (t & (f & g & F1 & F2 & ->) & (a & A1 & A2)) G IH]; constructor; [|apply IH; intros; apply R; cbn; auto].
  rewrite Forall_forall in AK. specialize (AK _ A1). cbn in AK. rewrite (six_pose _ _ _ F1), (six_twist _ _ _ F2) in AK.
  destruct (VS i (R i (or_introl eq_refl))) as (V1 & V2). destruct (along_going _ _ u (pose_rigid from i) V1 U0 V2) as (<- & _). congruence.
Qed.
Lemma velocities_going vs : Forall2 (vel_asked tr u) ts vs ->
  Forall2 (fun w y => y = twistToVector w) (map (twist_at xd) (seq 0 k)) vs.
Proof.
  intros F. pose proof (F2_map _ _ _ _ _ (build_all _ _ _ _ _ B) F) as G. clear B F.
  assert (R : forall i, In i (seq 0 k) -> (i < k)%nat) by (intros i I; apply in_seq in I; lia). revert R G. generalize (seq 0 k). intros is R G.
  induction G as [|i y is ys (t & (f & g & F1 & F2 & ->) & (a & A1 & A2)) G IH]; constructor; [|apply IH; intros; apply R; cbn; auto].
  rewrite Forall_forall in AK. specialize (AK _ A1). cbn in AK. rewrite (six_pose _ _ _ F1), (six_twist _ _ _ F2) in AK.
  destruct (VS i (R i (or_introl eq_refl))) as (V1 & V2). destruct (along_going _ _ u (pose_rigid from i) V1 U0 V2) as (_ & E). rewrite E in AK. congruence.
Qed.
End Samples.

Lemma corrected_none a k e i : (forall j, nth j e 0 = 0) -> corrected a k (twist_at e i) = a.
Proof. intros H. unfold corrected, twist_at, vadd, vscale. cbn [t_vel t_rot vx vy vz]. rewrite !H. destruct a as [[] []]. cbn. f_equal; f_equal; ring. Qed.

Theorem movv_steers c xd s tr s1 h s2 moves :
  let k := (length xd / 6)%nat in
  exec (movv c xd) s tr (Done true) s1 ->
  history c s1 h s2 -> Forall (fun e => lets_go_on (fst (fst e))) h ->
  Forall as_kdl (trace_of h) -> Forall (moves_as_asked (numJoints c) k moves) (trace_of h) ->
  (forall i, (i < k)%nat -> visible (twist_at xd i)) ->
  exists from start, starts_at (numJoints c) tr from /\ In (Now, start) tr /\
   forall o t b x a, In (o, t, b) h -> In (x, a) t -> motion x = true ->
     exists w now q cur des e, o = OCycle /\ x = VelocityMove w /\ In (Now, now) t /\ joints_read (numJoints c) t q /\
       In (FwdKin q, cur) t /\ ok cur = true /\ In (PoseDiff des (vals cur), e) t /\
       let u := num now - num start in let there i := going (pose_at from i) (twist_at xd i) u in
       (0 <= u -> (forall i, (i < k)%nat -> u * speed (twist_at xd i) <= 10) ->
        length des = (6 * k)%nat /\ map fp (poses des) = map (fun i => fp (there i)) (seq 0 k) /\ ((forall i, (i < k)%nat -> regular_log (fM (there i))) -> poses des = map there (seq 0 k)) /\
        moves (referenceFrame s) q w (map (fun i => corrected (twist_at xd i) (gain s * 1000 / IZR (cmcPeriodMs s)) (twist_at (vals e) i)) (seq 0 k)) /\
        (Forall tells_equal t -> (forall i, (i < k)%nat -> regular_log (fM (there i))) -> poses (vals cur) = map there (seq 0 k) ->
         moves (referenceFrame s) q w (map (twist_at xd) (seq 0 k)))).
Proof.
  intros k E H L AK SV VB. destruct (movv_built _ _ _ _ _ _ E eq_refl) as (from & ts & start & FT & B & IN & T1 & T2 & T3 & T4 & T5 & T6).
  exists from, start. split; [exact FT|]. split; [exact IN|]. intros o t b x a I Ix Mx.
  assert (CY : forall s, same_view s1 s -> forall tr o s', exec (run c) s tr o s' -> kept s s' /\ cycled c (vel_motion (numJoints c) ts (num start) (loop_gain s1) (referenceFrame s1) false) tr).
  { intros s0 V tr0 o0 s0' E0. rewrite <- (same_gain _ _ V). destruct V as (V1 & V2 & _ & _ & V5 & V6). rewrite <- T1, <- V1, <- T2, <- V2, <- V5. eapply movv_run; eauto. congruence. }
  destruct (follow_gen c s1 _ CY h s1 s2 (kept_refl _) H L _ _ _ _ _ I Ix Mx) as (-> & PM).
  destruct PM as [Q|(ae & A1 & A2 & PM)]; [rewrite (quiet_in _ _ _ Q Ix) in Mx; discriminate|].
  destruct (PM _ _ Ix Mx) as (w & -> & (an & ys & vs & cur & e & g & cmd & ai & S1 & S2 & S3 & S4 & S5 & S6 & S7 & S8 & S9 & S10 & S11 & S12 & S13)).
  pose proof (in_trace_F _ _ _ _ _ AK I) as AKt. pose proof (in_trace_F _ _ _ _ _ SV I) as SVt. rewrite Forall_forall in SVt.
  destruct (SVt _ S10 S11) as (LN & MV). pose proof (SVt _ S7) as LE. cbn in LE. specialize (MV (eq_trans (proj1 (control_law_nth _ _ _ _ S9)) LE)).
  exists w, an, (fill 0 (numJoints c) (vals ae)), cur, (concat ys), e. split; [auto|]. split; [auto|]. split; [auto|].
  split; [now apply filled|]. split; [auto|]. split; [auto|]. split; [auto|]. intros u there U0 UL.
  assert (VS : forall i, (i < k)%nat -> visible (twist_at xd i) /\ u * speed (twist_at xd i) <= 10) by auto.
  pose proof (samples_going _ _ _ _ _ _ B AKt VS U0 _ S2) as W0. pose proof (velocities_going _ _ _ _ _ _ B AKt VS U0 _ S3) as W1.
  assert (P1 : (forall i, (i < k)%nat -> regular_log (fM (there i))) -> poses (concat ys) = map there (seq 0 k)).
  { intros RG. apply poses_concat; [exact W0|]. apply Forall_forall. intros f If. apply in_map_iff in If. destruct If as (i & <- & If). apply in_seq in If.
    split; [apply going_rigid, pose_rigid|apply RG; lia]. }
  assert (P2 : moves (referenceFrame s) (fill 0 (numJoints c) (vals ae)) w (map (fun i => corrected (twist_at xd i) (gain s * 1000 / IZR (cmcPeriodMs s)) (twist_at (vals e) i)) (seq 0 k))).
  { rewrite S13, firstn_all2 by lia. rewrite (commanded _ _ _ _ k S9 LE), T6 in MV. erewrite map_ext_in; [exact MV|].
    intros i Hi. apply in_seq in Hi. cbn beta. rewrite (twist_nth _ _ i (twist_at xd 0) W1) by (rewrite map_length, seq_length; apply Hi). rewrite map_nth, seq_nth by apply Hi. f_equal.
    destruct S8 as [S8|S8]; [exfalso; rewrite S8 in LE; change (0 = 6 * k)%nat in LE; clearbody k; clear -LE Hi; lia|]. unfold loop_gain in S8. destruct Z.eqb; [discriminate|]. injection S8 as <-. rewrite T4, T5. unfold Rdiv. ring. }
  split; [rewrite (written_length _ _ W0); now rewrite map_length, seq_length|]. split; [rewrite (positions_concat _ _ W0); apply map_map|]. split; [exact P1|]. split; [exact P2|]. intros TE RG PC. erewrite map_ext_in; [exact P2|]. intros i _. cbn beta. symmetry. apply corrected_none.
  rewrite Forall_forall in TE. apply (TE _ S7). rewrite PC. now apply P1.
Qed.
(** a robot that moves as asked is told to go on *)
Theorem movv_constant c xd s tr s1 h s2 moves :
  let k := (length xd / 6)%nat in
  exec (movv c xd) s tr (Done true) s1 -> referenceFrame s = BASE_FRAME ->
  history c s1 h s2 -> Forall (fun e => lets_go_on (fst (fst e))) h ->
  Forall as_kdl (trace_of h) -> Forall (moves_as_asked (numJoints c) k moves) (trace_of h) -> Forall tells_equal (trace_of h) ->
  (forall i, (i < k)%nat -> visible (twist_at xd i)) ->
  exists from start, starts_at (numJoints c) tr from /\ In (Now, start) tr /\
   forall o t b w a, In (o, t, b) h -> In (VelocityMove w, a) t ->
     exists now q cur, In (Now, now) t /\ joints_read (numJoints c) t q /\ In (FwdKin q, cur) t /\ ok cur = true /\
       let u := num now - num start in let there i := going (pose_at from i) (twist_at xd i) u in
       (0 <= u -> (forall i, (i < k)%nat -> u * speed (twist_at xd i) <= 10 /\ regular_log (fM (there i))) -> poses (vals cur) = map there (seq 0 k) ->
        moves BASE_FRAME q w (map (twist_at xd) (seq 0 k))).
Proof.
  intros k E RF H L AK SV TE VB. destruct (movv_steers _ _ _ _ _ _ _ _ E H L AK SV VB) as (from & start & ST & IN & X).
  exists from, start. split; [exact ST|]. split; [exact IN|]. intros o t b w a I Iw. destruct (X _ _ _ _ _ I Iw eq_refl) as (w' & now & q & cur & des & e & -> & EQ & I1 & I2 & I3 & I4 & I5 & Y).
  injection EQ as <-. exists now, q, cur. split; [exact I1|]. split; [exact I2|]. split; [exact I3|]. split; [exact I4|]. intros u there U0 U1 PC.
  destruct (Y U0 (fun i Hi => proj1 (U1 i Hi))) as (_ & _ & _ & _ & Z). rewrite RF in Z. apply Z; [eapply in_trace_F; eauto|intros i Hi; apply U1; exact Hi|exact PC].
Qed.
