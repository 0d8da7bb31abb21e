(** Proofs about the end of a movement along a line. *)
From Coq Require Import Reals ZArith List Bool Lra Lia.
From Verif Require Import Kdl KdlFacts KdlRot KinRepSpec AsibotSpec KdlTraj LineSpec LineFacts2 Vocab Bcc BccSpec BccKdl BccLineSpec
  BccFacts BccAll BccFacts2 BccFacts3 BccFacts4 BccFacts6 BccFacts7 BccLineFacts BccLineFacts2.
Import ListNotations.
Open Scope R_scope.
Local Notation S := Datatypes.S.
Local Notation length := List.length.

(** ** How close the last command is *)
Lemma angle_unique a b s t : unit a -> unit b -> 0 <= s <= PI -> 0 <= t <= PI -> Rot2 a s = Rot2 b t -> s = t.
Proof.
  intros UA UB S T E.
  assert (TR : forall a t, unit a -> m00 (Rot2 a t) + m11 (Rot2 a t) + m22 (Rot2 a t) = 1 + 2 * cos t).
  { intros c u U. replace (m00 (Rot2 c u) + m11 (Rot2 c u) + m22 (Rot2 c u)) with (3 * cos u + (1 - cos u) * dot c c) by (unfold Rot2, dot; cbn; ring). rewrite U. ring. }
  pose proof (TR a s UA) as H1. rewrite E, (TR b t UB) in H1. assert (C : cos s = cos t) by lra. rewrite <- (acos_cos s S), <- (acos_cos t T), C. reflexivity.
Qed.
Lemma rest_of_turn a b axis angle : rigid a -> rigid b -> measurable a b -> unit axis -> 0 <= angle <= PI -> fM b = mm (fM a) (Rot2 axis angle) -> angle <= path_length a b.
Proof.
  intros RA RB (_ & RL) U A E. unfold path_length. destruct (axis_angle (mm (mT (fM a)) (fM b)) (rot_mm _ _ (rot_mT _ RA) RB) RL) as (x & t & G & UX & T & ET).
  assert (RT : mm (mT (fM a)) (fM b) = Rot2 axis angle) by (rewrite E, <- mm_assoc, (rot_TM _ RA), mm_id_l; reflexivity).
  rewrite RT in ET. pose proof (angle_unique _ _ _ _ UX U T A ET) as ->. unfold GetRot. rewrite G. cbn [fst snd]. rewrite norm_scale, (unit_norm x UX), Rabs_pos_eq by lra.
  rewrite Rmult_1_r. apply Rmax_r.
Qed.
Theorem on_line_close a b D q : rigid a -> rigid b -> measurable a b -> on_line a b D q -> let T := line_time a b D in
  (forall u, T <= u -> q u = b) /\
  forall u d, T - d <= u <= T -> norm (vsub (fp b) (fp (q u))) <= 5 * (d * d) /\
    exists axis angle, unit axis /\ 0 <= angle <= 5 * (d * d) /\ fM b = mm (fM (q u)) (Rot2 axis angle).
Proof.
  intros RA RB MS (p & r & (axis & angle & U & A & E & P) & (R0 & R1 & RM) & _ & SH & Q) T. split.
  - intros u Hu. rewrite Q, (R1 u Hu), P, !Rmult_1_l, <- E. destruct b as [m [x y z]]. cbn [fp fM]. f_equal. unfold vadd, vscale, vsub. cbn. f_equal; ring.
  - intros u d (H1 & H2). specialize (SH u H2). rewrite Q, P. cbn [fp fM].
    assert (L1 : r u <= 1) by (rewrite <- (R1 T (Rle_refl T)); apply RM; exact H2).
    assert (DD : 5 * ((T - u) * (T - u)) <= 5 * (d * d)) by (apply Rmult_le_compat_l; [lra|]; apply Rmult_le_compat; lra). fold T in SH.
    pose proof (rest_of_turn _ _ _ _ RA RB MS U A E) as AL. split.
    + replace (vsub (fp b) (vadd (fp a) (vscale (r u) (vsub (fp b) (fp a))))) with (vscale (1 - r u) (vsub (fp b) (fp a))) by (unfold vadd, vscale, vsub; cbn; f_equal; ring).
      rewrite norm_scale, Rabs_pos_eq by lra. eapply Rle_trans; [apply (Rmult_le_compat_l _ _ (path_length a b)); [lra|apply Rmax_l]|]. lra.
    + exists axis, ((1 - r u) * angle). split; [exact U|]. split.
      * split; [apply Rmult_le_pos; lra|]. eapply Rle_trans; [apply Rmult_le_compat_l; [lra|exact AL]|]. lra.
      * rewrite E, mm_assoc. f_equal. rewrite Rot2_plus by exact U. f_equal. ring.
Qed.

(** ** When it ends *)
(** the time of one of the lines is over *)
Definition late (ts : list traj) (start : R) (tr : list event) : Prop :=
  exists now t d, In (Now, now) tr /\ In t ts /\ In (TrajDuration t, d) tr /\ num d < num now - start.
Lemma sample_late ts time w : forall x xd s tr s', exec (sample ts time true w x xd) s tr (Done None) s' ->
  exists t d, In t ts /\ In (TrajDuration t, d) tr /\ num d < time.
Proof.
  induction ts as [|t ts IH]; intros x xd s tr s' E; cbn [sample] in E; [cbn in E; destruct E as (_ & E & _); discriminate|].
  cbn [bind ask exec] in E. destruct E as (d & tr' & -> & E). destruct (Rltb_spec (num d) time) as [L|L].
  - exists t, d. cbn. auto.
  - cbn [bind ask exec] in E. destruct E as (a & tr'' & -> & E). destruct w.
    + cbn [bind ask exec] in E. destruct E as (a' & tr3 & -> & E). destruct (IH _ _ _ _ _ E) as (t0 & d0 & A & B & C). exists t0, d0. cbn. auto 6.
    + destruct (IH _ _ _ _ _ E) as (t0 & d0 & A & B & C). exists t0, d0. cbn. auto 6.
Qed.
Lemma posd_late c q s : wp (handleMovlPosd c q) s [] (fun tr o s' => s' = s \/ late (trajectories s) (movementStartTime s) tr).
Proof.
  unfold handleMovlPosd. apply wp_check. intros a b _. destruct b; cbn [negb]; go; [|auto]. intros now. rewrite wp_bind. apply exec_wp. intros tr o s' E.
  pose proof (sample_asks _ _ _ _ _ _ _ _ _ _ E) as (-> & _ & _). destruct o as [[[x xd]|]|]; [| |auto].
  - go. intros ai. brk; go; auto. destruct first_n; go; auto.
  - apply sample_late in E. destruct E as (t & d & A & B & C). apply wp_stop. intros ts ST. go. right. exists now, t, d.
    split; [rewrite !in_app_iff; cbn; auto|]. split; [auto|]. split; [rewrite !in_app_iff; auto|auto].
Qed.
Lemma vel_late c q s : wp (handleMovlVel c q) s [] (fun tr o s' => s' = s \/ late (trajectories s) (movementStartTime s) tr).
Proof.
  unfold handleMovlVel. apply wp_check. intros a b _. destruct b; cbn [negb]; go; [|auto]. intros now. rewrite wp_bind. apply exec_wp. intros tr o s' E.
  pose proof (sample_asks _ _ _ _ _ _ _ _ _ _ E) as (-> & _ & _). destruct o as [[[x xd]|]|]; [| |auto].
  - go. intros cur. brk; go; auto. apply vel_command; auto.
  - apply sample_late in E. destruct E as (t & d & A & B & C). apply wp_stop. intros ts ST. go. right. exists now, t, d.
    split; [rewrite !in_app_iff; cbn; auto|]. split; [auto|]. split; [rewrite !in_app_iff; auto|auto].
Qed.
Lemma late_more ts start t1 t t2 : late ts start t -> late ts start (t1 ++ t ++ t2).
Proof. intros (n & x & d & A & B & C & D). exists n, x, d. rewrite !in_app_iff. auto 9. Qed.

(** not ended, or failed, or late *)
Definition run_fate (s : st) (tr : list event) (s' : st) : Prop :=
  (same_view s s' /\ cmcSuccess s' = cmcSuccess s) \/ (cmcSuccess s' = false /\ currentState s' = VOCAB_CC_NOT_CONTROLLING) \/ late (trajectories s) (movementStartTime s) tr.
Lemma run_ends c s tr o s' : currentState s = VOCAB_CC_MOVL_CONTROLLING -> exec (run c) s tr o s' -> run_fate s tr s'.
Proof.
  intros CS. apply (wp_sound _ _ (fun tr _ s' => run_fate s tr s')). unfold run. go. rewrite CS. change (Z.eqb VOCAB_CC_MOVL_CONTROLLING VOCAB_CC_NOT_CONTROLLING) with false. cbn iota.
  rewrite wp_bind. unfold cycle_body, read_encoders. go.
  assert (FIN : forall (b : bool) s1 t, run_fate s t s1 -> wp (if b then Ret tt else modify (set_cmcSuccess false) ;; (let* _ := stopControl c in Ret tt)) s1 t (fun t _ s' => run_fate s t s')).
  { intros [] s1 t K; go; [auto|]. apply wp_stop. intros ts ST. go. right. left. split; reflexivity. }
  assert (KE : forall t n, run_fate s t (set_encoderErrors n s)) by (left; repeat split).
  intros a. brk; go; [|apply FIN; apply KE]. intros b. brk; go; [|apply FIN; apply KE].
  intros d. brk; go; [|apply FIN; apply KE].
  destruct checkJointLimits as [lim|]; go; [|apply KE]. destruct lim; cbn [negb]; go; [|refine (FIN false (set_encoderErrors 0 s) _ _); apply KE].
  change (Z.eqb VOCAB_CC_MOVL_CONTROLLING VOCAB_CC_MOVJ_CONTROLLING) with false. change (Z.eqb VOCAB_CC_MOVL_CONTROLLING VOCAB_CC_MOVL_CONTROLLING) with true. cbn iota.
  set (s0 := set_encoderErrors 0 s). apply exec_wp. intros u ob s1 E.
  assert (X : s1 = s0 \/ late (trajectories s0) (movementStartTime s0) u).
  { destruct (usePosdMovl c); [pose proof (posd_late c (fill 0 (numJoints c) (vals a)) s0) as W|pose proof (vel_late c (fill 0 (numJoints c) (vals a)) s0) as W];
      apply wp_sound with (1 := W) in E; exact E. }
  assert (K : run_fate s ([(GetEncoders, a); (GetEncoderSpeeds, b); (GetEncoderAccelerations, d)] ++ u) s1).
  { destruct X as [-> | X]; [apply KE|right; right]. rewrite <- (app_nil_r u). apply late_more. exact X. }
  cbn [app] in *. destruct ob as [b0|e]; [apply FIN|]; exact K.
Qed.

(** what the other commands keep *)
Definition aside (a b : st) : Prop := cmcSuccess b = cmcSuccess a /\ currentState b = currentState a.
Lemma aside_refl a : aside a a. Proof. split; reflexivity. Qed.
Lemma aside_trans a b d : aside a b -> aside b d -> aside a d. Proof. intros (A1 & A2) (B1 & B2). split; congruence. Qed.
Lemma watch_aside c o s tr b s' : watches o -> o <> OCycle -> exec (do_op c o) s tr (Done b) s' -> aside s s'.
Proof.
  intros W NC E.
  assert (A : forall (p : prog bool), all (fun _ => True) aside p -> exec p s tr (Done b) s' -> aside s s').
  { intros p H E0. exact (proj1 (all_exec _ aside p aside_refl aside_trans H _ _ _ _ E0)). }
  set (P := fun a b : st => cmcSuccess b = cmcSuccess a /\ (currentState a = VOCAB_CC_NOT_CONTROLLING -> currentState b = VOCAB_CC_NOT_CONTROLLING)).
  assert (PT : forall a b d, P a b -> P b d -> P a d) by (intros x y z (A1 & A2) (B1 & B2); split; [congruence|auto]).
  assert (A' : forall (p : prog bool), all (fun _ => True) P p -> exec p s tr (Done b) s' -> currentState s = VOCAB_CC_NOT_CONTROLLING -> aside s s').
  { intros p H E0 N. destruct (all_exec _ P p (fun a => conj eq_refl (fun H => H)) PT H _ _ _ _ E0) as ((H1 & H2) & _). split; [exact H1|rewrite N; auto]. }
  assert (AS : forall k x, all (fun _ => True) P (setParameter c k x)).
  { intros k x. unfold setParameter, presetStreamingCommand. pall; try (intros s0; split; [reflexivity|intros Hs; first [exact Hs|reflexivity]]); try exact I; try (apply all_modes; repeat split; auto). }
  destruct o; cbn [do_op watches lets_go_on] in *; try contradiction; try congruence.
  - refine (A _ _ E). pall. apply all_stat; repeat split; auto.
  - refine (A _ _ E). pall. apply all_inv; repeat split; auto.
  - refine (A _ _ E). apply all_tool; repeat split; auto.
  - refine (A _ _ E). unfold act. pall; exact I.
  - destruct (Z.eq_dec (currentState s) VOCAB_CC_NOT_CONTROLLING) as [N|N]; [eapply A'; eauto|].
    unfold setParameter in E. cbn [bind look exec] in E. destruct (Z.eqb_spec (currentState s) VOCAB_CC_NOT_CONTROLLING); [contradiction|].
    cbn in E. destruct E as (-> & _ & ->). apply aside_refl.
  - refine (A _ _ E). unfold getParameter. pall.
  - unfold setParameters in E. cbn [bind look exec] in E. destruct (Z.eqb_spec (currentState s) VOCAB_CC_NOT_CONTROLLING) as [N|N]; cbn [negb] in E.
    + refine (A' (set_all c params true) _ E N). assert (X : forall m f, all (fun _ => True) P (set_all c m f)); [|apply X].
      induction m as [|[k v] m IH]; intros; cbn [set_all]; pall; [apply AS|apply IH].
    + cbn in E. destruct E as (-> & _ & ->). apply aside_refl.
  - refine (A _ _ E). unfold getParameters. pall.
Qed.
Definition ever_late (ts : list traj) (start : R) (h : list entry) : Prop := exists o t b, In (o, t, b) h /\ late ts start t.
Lemma history_ends c ts start : forall h s s2, history c s h s2 -> Forall (fun e => watches (fst (fst e))) h ->
  (currentState s = VOCAB_CC_NOT_CONTROLLING /\ cmcSuccess s = false) \/
  (currentState s = VOCAB_CC_MOVL_CONTROLLING /\ trajectories s = ts /\ movementStartTime s = start) ->
  currentState s2 = VOCAB_CC_NOT_CONTROLLING -> cmcSuccess s2 = true -> ever_late ts start h.
Proof.
  induction h as [|[[o t] b] h IH]; intros s s2 H W I N C; inversion H as [|? s1 ? ? ? ? ? E H']; subst.
  - destruct I as [(_ & I)|(I & _)]; [congruence|rewrite I in N; discriminate].
  - inversion W as [|? ? W1 W2]; subst. cbn [fst] in W1.
    assert (NEXT : (currentState s1 = VOCAB_CC_NOT_CONTROLLING /\ cmcSuccess s1 = false) \/
      (currentState s1 = VOCAB_CC_MOVL_CONTROLLING /\ trajectories s1 = ts /\ movementStartTime s1 = start) -> ever_late ts start ((o, t, b) :: h)).
    { intros I1. destruct (IH _ _ H' W2 I1 N C) as (o' & t' & b' & J & L). exists o', t', b'. cbn. auto. }
    destruct (match o with OCycle => true | _ => false end) eqn:OC.
    + assert (o = OCycle) as -> by (destruct o; congruence). cbn [do_op] in E. apply exec_bind in E. destruct E as [(u & t1 & t2 & s1' & -> & E1 & E2)|(e & X & _)]; [|discriminate].
      cbn in E2. destruct E2 as (-> & _ & ->). rewrite app_nil_r in *. destruct I as [(I1 & I2)|(I1 & I2 & I3)].
      * unfold run in E1. cbn [bind look exec] in E1. rewrite I1 in E1. cbn in E1. destruct E1 as (-> & _ & ->). apply NEXT. auto.
      * destruct (run_ends _ _ _ _ _ I1 E1) as [((V1 & V2 & _ & _ & _ & V6) & SC)|[(F1 & F2)|L]]; [apply NEXT; right; repeat split; congruence|apply NEXT; auto|].
        subst. exists OCycle, t1, b. cbn. auto.
    + assert (NO : o <> OCycle) by (intros ->; discriminate). destruct (watch_aside _ _ _ _ _ _ W1 NO E) as (A1 & A2).
      assert (LG : lets_go_on o) by (destruct o; cbn in *; auto). destruct (other_kept _ _ _ _ _ _ LG NO E) as (K & _). apply NEXT.
      destruct I as [(I1 & I2)|(I1 & I2 & I3)]; [left; split; congruence|right]. destruct K as [K|(V1 & V2 & _)]; [rewrite A2, I1 in K; discriminate|]. repeat split; congruence.
Qed.
Theorem movl_ends c fuel xd s tr s1 h s2 : 0 < duration s -> exec (movl c fuel xd) s tr (Done true) s1 ->
  history c s1 h s2 -> Forall (fun e => watches (fst (fst e))) h -> Forall as_kdl (trace_of h) ->
  currentState s2 = VOCAB_CC_NOT_CONTROLLING -> cmcSuccess s2 = true ->
  let k := (length xd / 6)%nat in
  exists from target start, from_to (numJoints c) s xd tr from target /\ In (Now, start) tr /\
  ((forall i, (i < k)%nat -> measurable (pose_at from i) (pose_at target i)) ->
   exists i o t b now, (i < k)%nat /\ In (o, t, b) h /\ In (Now, now) t /\
     line_time (pose_at from i) (pose_at target i) (duration s) < num now - num start).
Proof.
  intros D E H W AK N C k. destruct (movl_built _ _ _ _ _ _ _ E eq_refl) as (from & target & ts & start & FT & B & IN & T1 & T2 & T3 & _).
  exists from, target, start. split; [exact FT|]. split; [exact IN|]. intros M.
  destruct (history_ends c ts (num start) _ _ _ H W (or_intror (conj T3 (conj T1 T2))) N C) as (o & t & b & I & now & x & d & L1 & L2 & L3 & L4).
  apply build_all in B. assert (X : exists i, In i (seq 0 k) /\ exists f g, six from i = Some f /\ six target i = Some g /\ x = Line f g (duration s)).
  { revert L2. clear -B. fold k in B. induction B as [|j y is ts Q B IH]; intros L2; [contradiction|]. destruct L2 as [<- |L2]; [exists j; split; [left; auto|exact Q]|].
    destruct (IH L2) as (i & A1 & A2). exists i. split; [right; exact A1|exact A2]. }
  destruct X as (i & Ii & f & g & F1 & F2 & ->). assert (Hi : (i < k)%nat) by (apply in_seq in Ii; lia). exists i, o, t, b, now. split; [exact Hi|]. split; [exact I|]. split; [exact L1|].
  pose proof (in_trace_F _ _ _ _ _ AK I) as AKt. rewrite Forall_forall in AKt. specialize (AKt _ L3). cbn in AKt. rewrite (six_pose _ _ _ F1), (six_pose _ _ _ F2) in AKt.
  destruct (line_moves from target (duration s) i (M i Hi) D) as (_ & LS & _). rewrite (AKt _ LS) in L4. exact L4.
Qed.
(** the commands near the end *)
Theorem movl_near c fuel xd s tr s1 h s2 reaches :
  usePosdMovl c = true -> 0 < duration s -> exec (movl c fuel xd) s tr (Done true) s1 ->
  history c s1 h s2 -> Forall (fun e => lets_go_on (fst (fst e))) h ->
  Forall as_kdl (trace_of h) -> Forall (solves (numJoints c) reaches) (trace_of h) ->
  let k := (length xd / 6)%nat in
  exists from target start, from_to (numJoints c) s xd tr from target /\ In (Now, start) tr /\
  ((forall i, (i < k)%nat -> measurable (pose_at from i) (pose_at target i)) ->
   forall o t b q a, In (o, t, b) h -> In (SetPositions q, a) t ->
     exists now ps, In (Now, now) t /\ length ps = k /\ let u := num now - num start in
       (Forall (fun p => regular_log (fM p)) ps -> reaches q ps) /\
       forall i d, (i < k)%nat -> line_time (pose_at from i) (pose_at target i) (duration s) - d <= u ->
         norm (vsub (fp (pose_at target i)) (fp (nth i ps fid))) <= 5 * (d * d) /\
         exists axis angle, unit axis /\ 0 <= angle <= 5 * (d * d) /\ fM (pose_at target i) = mm (fM (nth i ps fid)) (Rot2 axis angle)).
Proof.
  intros P D E H L AK SV k. destruct (movl_follows _ _ _ _ _ _ _ _ _ P D E H L AK SV) as (from & target & start & FT & IN & X).
  exists from, target, start. split; [exact FT|]. split; [exact IN|]. intros M. destruct (X M) as (move & OL & Y). intros o t b q a I Iq.
  destruct (Y _ _ _ _ _ I Iq eq_refl) as (q' & now & -> & EQ & IN2 & LT & RE). injection EQ as <-.
  set (u := num now - num start) in *. exists now, (map (fun i => move i u) (seq 0 k)). split; [exact IN2|]. split; [rewrite map_length, seq_length; reflexivity|]. split.
  - intros RG. apply RE. intros i Hi. rewrite Forall_forall in RG. apply RG. apply (in_map (fun i => move i u)). apply in_seq. lia.
  - intros i d Hi TD. assert (NT : nth i (map (fun i => move i u) (seq 0 k)) fid = move i u).
    { rewrite (nth_indep _ fid (move 0%nat u)) by (rewrite map_length, seq_length; exact Hi). rewrite (map_nth (fun i => move i u)), seq_nth by exact Hi. reflexivity. }
    rewrite NT. destruct (on_line_close _ _ _ _ (pose_rigid from i) (pose_rigid target i) (M i Hi) (OL i Hi)) as (_ & CL). apply CL. split; [exact TD|apply LT; exact Hi].
Qed.
