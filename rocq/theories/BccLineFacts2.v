(** Proofs about movements along a line: from the start of movl to the commands that the robot gets. *)
From Coq Require Import Reals ZArith List Bool Lra Lia.
From Verif Require KinRep.
From Verif Require Import Kdl KdlFacts KdlRot KdlRotFacts KinRepSpec AsibotSpec KdlTraj LineSpec LineFacts2 Vocab Bcc BccSpec BccKdl BccLineSpec
  BccFacts BccAll BccFacts2 BccFacts3 BccFacts4 BccFacts6 BccFacts7 BccLineFacts.
Import ListNotations.
Open Scope R_scope.
Local Notation S := Datatypes.S.
Local Notation length := List.length.
Local Notation vectorToFrame := KinRep.vectorToFrame.
Local Notation frameToVector := KinRep.frameToVector.
Local Notation vectorToTwist := KinRep.vectorToTwist.
Local Notation twistToVector := KinRep.twistToVector.

(** ** The six numbers of each endpoint *)
Lemma six_some x i f : six x i = Some f -> (6 * (i + 1) <= length x)%nat /\ f = firstn 6 (skipn (6 * i) x).
Proof. unfold six. destruct (Nat.ltb_spec (length x) (6 * (i + 1))); [discriminate|]. intros [= <-]. auto. Qed.
Lemma firstn6 (x : list R) k : (k + 6 <= length x)%nat -> firstn 6 (skipn k x) = map (fun j => nth (k + j) x 0) (seq 0 6).
Proof.
  revert k. induction x as [|a x IH]; intros k H; [cbn in H; lia|]. destruct k as [|k].
  - cbn [length] in H. do 5 (destruct x as [|? x]; [cbn in H; lia|]). reflexivity.
  - cbn [skipn]. rewrite IH; [reflexivity|cbn in H; lia].
Qed.
Lemma six_list x i f : six x i = Some f -> f = map (fun j => nth (6 * i + j) x 0) (seq 0 6).
Proof. intros H. apply six_some in H. destruct H as (L & ->). apply firstn6. lia. Qed.
Lemma six_pose x i f : six x i = Some f -> vectorToFrame f = pose_at x i.
Proof. intros H. rewrite (six_list _ _ _ H). reflexivity. Qed.
Lemma six_twist x i f : six x i = Some f -> vectorToTwist f = twist_at x i.
Proof. intros H. rewrite (six_list _ _ _ H). reflexivity. Qed.
Lemma pose_rigid x i : rigid (pose_at x i).
Proof. unfold rigid, pose_at. cbn. apply rot_of_rot. Qed.

Lemma nth_six (y x : list R) i j : length y = 6%nat -> nth (6 * S i + j) (y ++ x) 0 = nth (6 * i + j) x 0.
Proof. intros L. rewrite app_nth2 by lia. f_equal. lia. Qed.
Lemma nth_head (y x : list R) j : length y = 6%nat -> (j < 6)%nat -> nth (6 * 0 + j) (y ++ x) 0 = nth (6 * 0 + j) y 0.
Proof. intros L H. rewrite app_nth1 by lia. reflexivity. Qed.
Lemma count_six (y x : list R) : length y = 6%nat -> (length (y ++ x) / 6 = S (length x / 6))%nat.
Proof. intros L. rewrite app_length, L. replace (6 + length x)%nat with (length x + 1 * 6)%nat by lia. rewrite Nat.div_add by lia. lia. Qed.
Lemma poses_app y x : length y = 6%nat -> poses (y ++ x) = pose_at y 0 :: poses x.
Proof.
  intros L. unfold poses. rewrite count_six by auto. cbn [seq map]. f_equal.
  - unfold pose_at. rewrite !nth_head by (auto; lia). reflexivity.
  - rewrite <- seq_shift, map_map. apply map_ext. intro i. unfold pose_at. rewrite !nth_six by auto. reflexivity.
Qed.
Lemma twists_app y x : length y = 6%nat -> twists (y ++ x) = twist_at y 0 :: twists x.
Proof.
  intros L. unfold twists. rewrite count_six by auto. cbn [seq map]. f_equal.
  - unfold twist_at. rewrite !nth_head by (auto; lia). reflexivity.
  - rewrite <- seq_shift, map_map. apply map_ext. intro i. unfold twist_at. rewrite !nth_six by auto. reflexivity.
Qed.
Lemma pose_written h : rigid h -> regular_log (fM h) -> pose_at (frameToVector h) 0 = h.
Proof.
  intros RG G. unfold pose_at, KinRep.frameToVector. cbn [nth Nat.mul Nat.add]. destruct h as [m p]. cbn [fM fp] in *. f_equal; [|destruct p; reflexivity].
  transitivity (rot_of (GetRot m)); [destruct (GetRot m); reflexivity|]. apply rot_of_GetRot; auto.
Qed.
Lemma twist_written w : twist_at (twistToVector w) 0 = w.
Proof. unfold twist_at, KinRep.twistToVector. cbn. destruct w as [[] []]. reflexivity. Qed.
Lemma poses_concat hs ys : Forall2 (fun h y => y = frameToVector h) hs ys -> Forall (fun h => rigid h /\ regular_log (fM h)) hs -> poses (concat ys) = hs.
Proof.
  induction 1 as [|h y hs ys -> F IH]; intros A; [reflexivity|]. inversion A as [|? ? (A1 & A2) A3]; subst. cbn [concat]. rewrite poses_app by reflexivity.
  rewrite pose_written by auto. f_equal. auto.
Qed.
Lemma positions_concat hs ys : Forall2 (fun h y => y = frameToVector h) hs ys -> map fp (poses (concat ys)) = map fp hs.
Proof.
  induction 1 as [|h y hs ys -> F IH]; [reflexivity|]. cbn [concat]. rewrite poses_app by reflexivity. cbn [map]. f_equal; [|exact IH].
  unfold pose_at, KinRep.frameToVector. cbn [nth Nat.mul Nat.add fp]. destruct h as [m []]. reflexivity.
Qed.
Lemma written_length hs ys : Forall2 (fun h y => y = frameToVector h) hs ys -> length (concat ys) = (6 * length hs)%nat.
Proof. induction 1 as [|h y hs ys -> F IH]; [reflexivity|]. cbn [concat length]. rewrite app_length, IH. cbn [length KinRep.frameToVector]. lia. Qed.
Lemma twists_concat ws ys : Forall2 (fun w y => y = twistToVector w) ws ys -> twists (concat ys) = ws.
Proof.
  induction 1 as [|h y hs ys -> F IH]; [reflexivity|]. cbn [concat]. rewrite twists_app by reflexivity. rewrite twist_written. f_equal. auto.
Qed.

(** ** The start of the movement *)
Lemma build_all mk from what is ts : build mk from what is = Some ts ->
  Forall2 (fun i t => exists f g, six from i = Some f /\ six what i = Some g /\ t = mk f g) is ts.
Proof.
  revert ts. induction is as [|i is IH]; intros ts H; cbn [build] in H.
  - injection H as <-. constructor.
  - destruct (six from i) as [f|] eqn:E1; [|discriminate]. destruct (six what i) as [g|] eqn:E2; [|discriminate].
    destruct (build mk from what is) as [r|] eqn:E3; [|discriminate]. injection H as <-. constructor; [eauto 6|auto].
Qed.

Lemma filled n tr a : In (GetEncoders, a) tr -> ok a = true -> joints_read n tr (fill 0 n (vals a)).
Proof.
  intros I O. exists a. split; [exact I|]. split; [exact O|]. unfold fill. split; [rewrite map_length, seq_length; reflexivity|].
  intros i Hi. rewrite (nth_indep _ 0 (nth 0 (vals a) 0)) by (rewrite map_length, seq_length; exact Hi). rewrite (map_nth (fun i => nth i (vals a) 0)), seq_nth by exact Hi. reflexivity.
Qed.
(** what movl leaves behind *)
Definition movl_done (n : nat) (s : st) (xd : list R) (tr : list event) (o : outcome bool) (s1 : st) : Prop :=
  o = Done true -> exists from target ts now, from_to n s xd tr from target /\
    build (fun f t => Line f t (duration s)) from target (seq 0 (length xd / 6)) = Some ts /\
    In (Now, now) tr /\ trajectories s1 = ts /\ movementStartTime s1 = num now /\ currentState s1 = VOCAB_CC_MOVL_CONTROLLING /\
    gain s1 = gain s /\ cmcPeriodMs s1 = cmcPeriodMs s /\ referenceFrame s1 = referenceFrame s.
Lemma movl_built c fuel xd s tr o s1 : exec (movl c fuel xd) s tr o s1 -> movl_done (numJoints c) s xd tr o s1.
Proof.
  apply wp_sound. assert (N : forall tr o s1, o <> Done true -> movl_done (numJoints c) s xd tr o s1) by (intros ? ? ? H1 H2; contradiction).
  unfold movl. go. intros a. brk; go; [|now apply N]. intros y. brk; go; [|now apply N].
  assert (K : forall obj t, (forall xo, obj = Some xo -> forall u, from_to (numJoints c) s xd (t ++ u) (vals y) xo) -> wp (match obj with
    | None => Ret false
    | Some xd_obj =>
      modify (set_trajectories []) ;;
      let* seconds := look duration in
      let* ts := need OutOfBounds (build (fun f t => Line f t seconds) (vals y) xd_obj (seq 0 (length xd / 6))) in
      modify (set_trajectories ts) ;;
      let* fine := (if enableFailFast c then doFailFastChecks c fuel (fill 0 (numJoints c) (vals a)) else Ret true) in
      if negb fine then Ret false else
      let* m := setControlModes c (if usePosdMovl c then VOCAB_CM_POSITION_DIRECT else VOCAB_CM_VELOCITY) in
      if negb m then Ret false else
      let* now := ask Now in
      modify (set_startTime (num now)) ;;
      modify (set_cmcSuccess true) ;;
      modify (setCurrentState VOCAB_CC_MOVL_CONTROLLING) ;;
      Ret true end) s t (movl_done (numJoints c) s xd)).
  { intros [obj|] t FT; go; [|now apply N]. destruct build as [ts|] eqn:B; go; [|now apply N].
    rewrite wp_bind. apply exec_wp. intros tr2 o2 s2 E.
    assert (s2 = set_trajectories ts (set_trajectories [] s)) as ->.
    { destruct enableFailFast; [now apply failfast_same in E|]. cbn in E. tauto. }
    destruct o2 as [[]|]; cbn [negb]; go; try now apply N.
    apply wp_modes. intros tm b _. destruct b; cbn [negb]; go; [|now apply N]. intros now _.
    exists (vals y), obj, ts, now. split; [rewrite <- !app_assoc; apply FT; reflexivity|]. split; [exact B|].
    split; [rewrite !in_app_iff; cbn; auto|]. repeat split. }
  destruct (Z.eqb_spec (referenceFrame s) TCP_FRAME) as [RF|RF]; go; [intros r; destruct (ok r) eqn:Or|].
  - refine (K (Some (vals r)) _ _). intros xo [= <-] u. split; [|split; [contradiction|intros _]].
    + exists (fill 0 (numJoints c) (vals a)), y. split; [apply filled; [rewrite !in_app_iff; cbn; left; auto|auto]|]. split; [rewrite !in_app_iff; cbn; left; auto|]. auto.
    + exists r. split; [rewrite !in_app_iff; cbn; left; auto|]. auto.
  - refine (K None _ _). discriminate.
  - refine (K (Some xd) _ _). intros xo [= <-] u. split; [|split; [auto|contradiction]].
    exists (fill 0 (numJoints c) (vals a)), y. split; [apply filled; [rewrite !in_app_iff; cbn; left; auto|auto]|]. split; [rewrite !in_app_iff; cbn; left; auto|]. auto.
Qed.

(** ** The operations that follow *)
Section Follow.
Variables (c : cfg) (s1 : st) (Mo : list event -> Prop).
Hypothesis CY : forall s, same_view s1 s -> forall tr o s', exec (run c) s tr o s' -> kept s s' /\ Mo tr.
Lemma idle_run s tr o s' : currentState s = VOCAB_CC_NOT_CONTROLLING -> exec (run c) s tr o s' -> tr = [] /\ s' = s.
Proof. intros N E. unfold run in E. cbn [bind look exec] in E. rewrite N in E. cbn in E. destruct E as (-> & _ & ->). auto. Qed.
Lemma follow_gen h : forall s s2, kept s1 s -> history c s h s2 -> Forall (fun e => lets_go_on (fst (fst e))) h ->
  forall o t b x a, In (o, t, b) h -> In (x, a) t -> motion x = true -> o = OCycle /\ Mo t.
Proof.
  induction h as [|e h IH]; intros s s2 K H L o t b x a I Ix Mx; [contradiction|].
  inversion H as [|? sm ? o1 tr1 b1 ? E H']; subst. inversion L as [|? ? L1 L2]; subst. cbn in L1.
  assert (C : o1 = OCycle \/ o1 <> OCycle) by (destruct o1; auto; right; discriminate).
  assert (G : (o1 <> OCycle -> quiet tr1) /\ kept s1 sm /\ (o1 = OCycle -> Mo tr1 \/ tr1 = [])).
  { destruct C as [-> |C].
    - cbn [do_op] in E. apply exec_bind in E. destruct E as [(u & t1 & t2 & sx & -> & E1 & E2)|(e0 & X & _)]; [|discriminate].
      cbn in E2. destruct E2 as (-> & _ & ->). rewrite app_nil_r. split; [congruence|]. destruct K as [K|K].
      + apply idle_run in E1; [|exact K]. destruct E1 as (-> & ->). split; [left; exact K|auto].
      + destruct (CY _ K _ _ _ E1) as (K1 & M1). split; [eapply kept_trans; [right; exact K|exact K1]|auto].
    - apply other_kept in E; auto. destruct E as (K1 & Q). split; [auto|]. split; [eapply kept_trans; eauto|contradiction]. }
  destruct G as (G1 & G2 & G3). destruct I as [I|I].
  - injection I as -> -> ->. destruct C as [C|C]; [|rewrite (quiet_in _ _ _ (G1 C) Ix) in Mx; discriminate].
    destruct (G3 C) as [M| ->]; [auto|contradiction].
  - eapply IH; eauto.
Qed.
End Follow.

(** ** Position direct mode *)
Lemma sent_more n ts start q0 t1 t t2 q : sent n ts start q0 t q -> sent n ts start q0 (t1 ++ t ++ t2) q.
Proof.
  assert (EX : forall e, In e t -> In e (t1 ++ t ++ t2)) by (intros; rewrite !in_app_iff; auto).
  intros (an & ys & ai & A & B & D & G). exists an, ys, ai. split; [auto|].
  split; [eapply F2_impl; [|exact B]; intros z y (b1 & B1 & B2); exists b1; auto|].
  split; [eapply Forall_impl; [|exact D]; intros z (b1 & B1 & B2); exists b1; auto|]. destruct G as (G1 & G2). split; auto.
Qed.
Lemma posd_run c s tr o s' : usePosdMovl c = true -> currentState s = VOCAB_CC_MOVL_CONTROLLING -> exec (run c) s tr o s' ->
  kept s s' /\ cycled c (posd_motion (numJoints c) (trajectories s) (movementStartTime s)) tr.
Proof.
  intros P CS E. refine (cycle_wrap c VOCAB_CC_MOVL_CONTROLLING (handleMovlPosd c) _ _ _ _ s tr o s' CS _ E).
  - intros. rewrite P. reflexivity.
  - discriminate.
  - intros q t1 t t2 Q1 Q2 H x a I M. rewrite !in_app_iff in I. destruct I as [I|[I|I]]; [rewrite (quiet_in _ _ _ Q1 I) in M; discriminate| |rewrite (quiet_in _ _ _ Q2 I) in M; discriminate].
    destruct (H _ _ I M) as (q' & -> & G). exists q'. split; [auto|]. now apply sent_more.
  - intros q s0 (V1 & V2 & _). rewrite <- V1, <- V2. apply posd_cycle.
Qed.

(** ** Velocity mode *)
Lemma steered_more n ts start g f tm q0 t1 t t2 w : steered n ts start g f tm q0 t w -> steered n ts start g f tm q0 (t1 ++ t ++ t2) w.
Proof.
  assert (EX : forall e, In e t -> In e (t1 ++ t ++ t2)) by (intros; rewrite !in_app_iff; auto).
  intros (an & ys & vs & cur & e & k & cmd & ai & A & B & D & T & G1 & G2 & G3 & G4 & G5 & G6 & G7). exists an, ys, vs, cur, e, k, cmd, ai. split; [auto|].
  split; [eapply F2_impl; [|exact B]; intros z y (b1 & B1 & B2); exists b1; auto|].
  split; [eapply F2_impl; [|exact D]; intros z y (b1 & B1 & B2); exists b1; auto|].
  split; [intros TM; eapply Forall_impl; [|exact (T TM)]; intros z (b1 & B1 & B2); exists b1; auto|].
  split; [auto|]. split; [auto|]. split; [auto|]. split; [auto|]. split; [auto|]. split; auto.
Qed.
Lemma vel_motion_more n ts start g f tm q0 t1 t t2 : quiet t1 -> quiet t2 -> vel_motion n ts start g f tm q0 t -> vel_motion n ts start g f tm q0 (t1 ++ t ++ t2).
Proof.
  intros Q1 Q2 H x a I M. rewrite !in_app_iff in I. destruct I as [I|[I|I]]; [rewrite (quiet_in _ _ _ Q1 I) in M; discriminate| |rewrite (quiet_in _ _ _ Q2 I) in M; discriminate].
  destruct (H _ _ I M) as (q' & -> & G). exists q'. split; [auto|]. now apply steered_more.
Qed.
Lemma same_gain s s0 : same_view s s0 -> loop_gain s0 = loop_gain s.
Proof. intros (_ & _ & G & P & _). unfold loop_gain. now rewrite G, P. Qed.
Lemma vel_run c s tr o s' : usePosdMovl c = false -> currentState s = VOCAB_CC_MOVL_CONTROLLING -> exec (run c) s tr o s' ->
  kept s s' /\ cycled c (vel_motion (numJoints c) (trajectories s) (movementStartTime s) (loop_gain s) BASE_FRAME true) tr.
Proof.
  intros P CS E. refine (cycle_wrap c VOCAB_CC_MOVL_CONTROLLING (handleMovlVel c) _ _ _ _ s tr o s' CS _ E).
  - intros. rewrite P. reflexivity.
  - discriminate.
  - intros. now apply vel_motion_more.
  - intros q s0 V. rewrite <- (same_gain _ _ V). destruct V as (V1 & V2 & _). rewrite <- V1, <- V2. apply movl_vel_cycle.
Qed.
Lemma movv_run c s tr o s' : currentState s = VOCAB_CC_MOVV_CONTROLLING -> exec (run c) s tr o s' ->
  kept s s' /\ cycled c (vel_motion (numJoints c) (trajectories s) (movementStartTime s) (loop_gain s) (referenceFrame s) false) tr.
Proof.
  intros CS E. refine (cycle_wrap c VOCAB_CC_MOVV_CONTROLLING (handleMovv c) _ _ _ _ s tr o s' CS _ E).
  - reflexivity.
  - discriminate.
  - intros. now apply vel_motion_more.
  - intros q s0 V. rewrite <- (same_gain _ _ V). destruct V as (V1 & V2 & _ & _ & V5 & _). rewrite <- V1, <- V2, <- V5. apply movv_cycle.
Qed.

(** the moving frame of a line *)
Definition line_move (from target : list R) (d : R) (i : nat) (u : R) : frame :=
  match line_pos (pose_at from i) (pose_at target i) d u with Some h => h | None => fid end.
Lemma line_moves from target d i : measurable (pose_at from i) (pose_at target i) -> 0 < d ->
  on_line (pose_at from i) (pose_at target i) d (line_move from target d i) /\
  line_seconds (pose_at from i) (pose_at target i) d = Some (line_time (pose_at from i) (pose_at target i) d) /\
  forall u, line_pos (pose_at from i) (pose_at target i) d u = Some (line_move from target d i u) /\
    exists w, line_vel (pose_at from i) (pose_at target i) d u = Some w /\ velocity_of (line_move from target d i) u w.
Proof.
  intros M D. pose proof (line_is_straight _ _ d (pose_rigid from i) (pose_rigid target i) M D) as (p & r & A & B & G & H & LS & LP).
  assert (EQ : forall u, line_move from target d i u = p (r u)). { intro u. unfold line_move. destruct (LP u) as (-> & _). reflexivity. }
  split; [exists p, r; auto 6|]. split; [exact LS|]. intros u. destruct (LP u) as (P & w & W & VW). rewrite EQ. split; [exact P|]. exists w. split; [exact W|].
  replace (line_move from target d i) with (fun u => p (r u)); [exact VW|]. apply FunctionalExtensionality.functional_extensionality. intro; symmetry; apply EQ.
Qed.
Lemma line_rigid from target d i u : measurable (pose_at from i) (pose_at target i) -> 0 < d -> rigid (line_move from target d i u).
Proof.
  intros M D. destruct (line_moves from target d i M D) as ((p & r & (axis & angle & U & _ & _ & P) & _ & _ & _ & Q) & _).
  rewrite Q, P. unfold rigid. cbn [fM]. apply rot_mm; [apply (pose_rigid from i)|]. now apply Rot2_rot.
Qed.

(** the samples are points of the lines *)
Lemma F2_map {A B C} (P : A -> B -> Prop) (Q : B -> C -> Prop) l m k : Forall2 P l m -> Forall2 Q m k -> Forall2 (fun a c => exists b, P a b /\ Q b c) l k.
Proof. intros F. revert k. induction F; intros k G; inversion G; subst; constructor; eauto. Qed.
Lemma F2_l {A B} (P : A -> B -> Prop) (g : A -> B) l m : Forall2 (fun a b => P a b /\ b = g a) l m -> m = map g l.
Proof. induction 1 as [|a b l m (_ & ->) F IH]; cbn; congruence. Qed.

Lemma samples_on_line from target d ts tr u ys k : 0 < d ->
  build (fun f t => Line f t d) from target (seq 0 k) = Some ts -> Forall as_kdl tr ->
  (forall i, (i < k)%nat -> measurable (pose_at from i) (pose_at target i)) -> Forall2 (pos_asked tr u) ts ys ->
  Forall2 (fun h y => y = frameToVector h) (map (fun i => line_move from target d i u) (seq 0 k)) ys.
Proof.
  intros D B AK M F. apply build_all in B. pose proof (F2_map _ _ _ _ _ B F) as G. clear B F.
  assert (R : forall i, In i (seq 0 k) -> (i < k)%nat) by (intros i I; apply in_seq in I; lia). revert R G. generalize (seq 0 k). intros is R G.
  induction G as [|i y is ys (t & (f & g & F1 & F2 & ->) & (a & A1 & A2)) G IH]; constructor; [|apply IH; intros; apply R; cbn; auto].
  rewrite Forall_forall in AK. specialize (AK _ A1). cbn in AK. rewrite (six_pose _ _ _ F1), (six_pose _ _ _ F2) in AK.
  destruct (line_moves from target d i (M i (R i (or_introl eq_refl))) D) as (_ & _ & LP). destruct (LP u) as (P & _). rewrite (AK _ P) in A2. congruence.
Qed.
Lemma velocities_on_line from target d ts tr u vs k : 0 < d ->
  build (fun f t => Line f t d) from target (seq 0 k) = Some ts -> Forall as_kdl tr ->
  (forall i, (i < k)%nat -> measurable (pose_at from i) (pose_at target i)) -> Forall2 (vel_asked tr u) ts vs ->
  exists ws, Forall2 (fun w y => y = twistToVector w) ws vs /\ Forall2 (fun i w => velocity_of (line_move from target d i) u w) (seq 0 k) ws.
Proof.
  intros D B AK M F. apply build_all in B. pose proof (F2_map _ _ _ _ _ B F) as G. clear B F.
  assert (R : forall i, In i (seq 0 k) -> (i < k)%nat) by (intros i I; apply in_seq in I; lia). revert R G. generalize (seq 0 k). intros is R G.
  induction G as [|i y is ys (t & (f & g & F1 & F2 & ->) & (a & A1 & A2)) G IH]; [exists []; split; constructor|].
  destruct IH as (ws & W1 & W2); [intros; apply R; cbn; auto|].
  rewrite Forall_forall in AK. specialize (AK _ A1). cbn in AK. rewrite (six_pose _ _ _ F1), (six_pose _ _ _ F2) in AK.
  destruct (line_moves from target d i (M i (R i (or_introl eq_refl))) D) as (_ & _ & LP). destruct (LP u) as (_ & w & P & VW). rewrite (AK _ P) in A2.
  exists (w :: ws). split; constructor; auto.
Qed.
Lemma times_of_lines from target d ts tr u k : 0 < d ->
  build (fun f t => Line f t d) from target (seq 0 k) = Some ts -> Forall as_kdl tr ->
  (forall i, (i < k)%nat -> measurable (pose_at from i) (pose_at target i)) -> Forall (in_time tr u) ts ->
  forall i, (i < k)%nat -> u <= line_time (pose_at from i) (pose_at target i) d.
Proof.
  intros D B AK M F i Hi. apply build_all in B.
  assert (I : In i (seq 0 k)) by (apply in_seq; lia). revert F I. clear Hi. assert (R : forall i, In i (seq 0 k) -> (i < k)%nat) by (intros j J; apply in_seq in J; lia).
  revert R. induction B as [|j t is ts (f & g & F1 & F2 & ->) B IH]; intros R F I; [contradiction|].
  inversion F as [|? ? (a & A1 & A2) F']; subst. destruct I as [-> |I]; [|apply IH; auto; intros; apply R; cbn; auto].
  rewrite Forall_forall in AK. specialize (AK _ A1). cbn in AK. rewrite (six_pose _ _ _ F1), (six_pose _ _ _ F2) in AK.
  destruct (line_moves from target d i (M i (R i (or_introl eq_refl))) D) as (_ & LS & _). rewrite (AK _ LS) in A2. exact A2.
Qed.

(** ** The theorem *)
Lemma in_trace (h : list entry) o t b e : In (o, t, b) h -> In e t -> In e (trace_of h).
Proof. intros I J. unfold trace_of. apply in_concat. exists t. split; [|exact J]. apply in_map_iff. exists (o, t, b). auto. Qed.
Lemma in_trace_F (P : event -> Prop) (h : list entry) o t b : Forall P (trace_of h) -> In (o, t, b) h -> Forall P t.
Proof. rewrite !Forall_forall. intros H I e J. apply H. eapply in_trace; eauto. Qed.
Lemma poses_on_line from target d k u : (forall i, (i < k)%nat -> measurable (pose_at from i) (pose_at target i)) -> 0 < d ->
  (forall i, (i < k)%nat -> regular_log (fM (line_move from target d i u))) ->
  Forall (fun h => rigid h /\ regular_log (fM h)) (map (fun i => line_move from target d i u) (seq 0 k)).
Proof.
  intros M D RG. apply Forall_forall. intros h I. apply in_map_iff in I. destruct I as (i & <- & I). apply in_seq in I.
  split; [apply line_rigid; auto; apply M; lia|apply RG; lia].
Qed.

Theorem movl_follows c fuel xd s tr s1 h s2 reaches :
  usePosdMovl c = true -> 0 < duration s -> exec (movl c fuel xd) s tr (Done true) s1 ->
  history c s1 h s2 -> Forall (fun e => lets_go_on (fst (fst e))) h ->
  Forall as_kdl (trace_of h) -> Forall (solves (numJoints c) reaches) (trace_of h) ->
  let k := (length xd / 6)%nat in
  exists from target start, from_to (numJoints c) s xd tr from target /\ In (Now, start) tr /\
  ((forall i, (i < k)%nat -> measurable (pose_at from i) (pose_at target i)) ->
   exists move, (forall i, (i < k)%nat -> on_line (pose_at from i) (pose_at target i) (duration s) (move i)) /\
   forall o t b x a, In (o, t, b) h -> In (x, a) t -> motion x = true ->
     exists q now, o = OCycle /\ x = SetPositions q /\ In (Now, now) t /\ let u := num now - num start in
       (forall i, (i < k)%nat -> u <= line_time (pose_at from i) (pose_at target i) (duration s)) /\
       ((forall i, (i < k)%nat -> regular_log (fM (move i u))) -> reaches q (map (fun i => move i u) (seq 0 k)))).
Proof.
  intros P D E H L AK SV k. destruct (movl_built _ _ _ _ _ _ _ E eq_refl) as (from & target & ts & start & FT & B & IN & T1 & T2 & T3 & _).
  exists from, target, start. split; [exact FT|]. split; [exact IN|]. intros M. exists (line_move from target (duration s)).
  split; [intros i Hi; apply line_moves; auto|]. intros o t b x a I Ix Mx.
  assert (CY : forall s, same_view s1 s -> forall tr o s', exec (run c) s tr o s' -> kept s s' /\ cycled c (posd_motion (numJoints c) ts (num start)) tr).
  { intros s0 (V1 & V2 & _ & _ & _ & V6) tr0 o0 s0' E0. rewrite <- T1, <- V1, <- T2, <- V2. eapply posd_run; eauto. congruence. }
  destruct (follow_gen c s1 _ CY h s1 s2 (kept_refl _) H L _ _ _ _ _ I Ix Mx) as (-> & PM).
  destruct PM as [Q|(ae & _ & _ & PM)]; [rewrite (quiet_in _ _ _ Q Ix) in Mx; discriminate|].
  destruct (PM _ _ Ix Mx) as (q & -> & (an & ys & ai & S1 & S2 & S3 & S4 & S5 & S6 & S7)). exists q, an. split; [auto|]. split; [auto|]. split; [exact S1|].
  pose proof (in_trace_F _ _ _ _ _ AK I) as AKt. pose proof (in_trace_F _ _ _ _ _ SV I) as SVt.
  split; [eapply times_of_lines; eauto|]. intros RG. rewrite Forall_forall in SVt. destruct (SVt _ S4 eq_refl S5) as (LN & RE).
  rewrite S7, firstn_all2 by lia. erewrite poses_concat in RE; [exact RE| |].
  - eapply samples_on_line; eauto.
  - now apply poses_on_line.
Qed.

Lemma control_law_nth g : forall err des cmd, control_law g err des = Some cmd -> length cmd = length err /\
  forall j, (j < length err)%nat -> nth j cmd 0 = nth j err 0 * g + nth j des 0.
Proof.
  induction err as [|x err IH]; intros des cmd H; cbn [control_law] in H.
  - injection H as <-. split; [reflexivity|cbn; lia].
  - destruct des as [|y des]; [discriminate|]. destruct (control_law g err des) as [r|] eqn:E; [|discriminate]. injection H as <-.
    destruct (IH _ _ E) as (L & N). split; [cbn; lia|]. intros [|j] Hj; [reflexivity|]. cbn in Hj |- *. apply N. lia.
Qed.
Lemma commanded g err des cmd k : control_law g err des = Some cmd -> length err = (6 * k)%nat ->
  twists cmd = map (fun i => corrected (twist_at des i) g (twist_at err i)) (seq 0 k).
Proof.
  intros H L. apply control_law_nth in H. destruct H as (LC & N). unfold twists. rewrite LC, L. replace (6 * k / 6)%nat with k by (rewrite Nat.mul_comm, Nat.div_mul; lia).
  apply map_ext_in. intros i I. apply in_seq in I. unfold twist_at, corrected. cbn [t_vel t_rot]. rewrite !N by lia. unfold vadd, vscale. cbn. f_equal; f_equal; ring.
Qed.
Lemma map_seq_nth {A} (d : A) l : l = map (fun i => nth i l d) (seq 0 (length l)).
Proof. induction l as [|a l IH]; [reflexivity|]. cbn [length seq map nth]. f_equal. rewrite <- seq_shift, map_map. exact IH. Qed.
Lemma twist_nth ws ys i d : Forall2 (fun w y => y = twistToVector w) ws ys -> (i < length ws)%nat -> twist_at (concat ys) i = nth i ws d.
Proof.
  intros F. revert i. induction F as [|w y ws ys -> F IH]; intros i Hi; [cbn in Hi; lia|]. cbn [concat]. destruct i as [|i].
  - unfold twist_at. rewrite !nth_head by (reflexivity || lia). apply twist_written.
  - unfold twist_at. rewrite !nth_six by reflexivity. cbn [nth]. apply IH. cbn in Hi. lia.
Qed.
Lemma F2_nth {A B} (P : A -> B -> Prop) da db l m : Forall2 P l m -> forall i, (i < length l)%nat -> P (nth i l da) (nth i m db).
Proof. induction 1 as [|a b l m H F IH]; intros [|i] Hi; cbn in *; try lia; auto. apply IH. lia. Qed.
Lemma F2_length {A B} (P : A -> B -> Prop) l m : Forall2 P l m -> length l = length m.
Proof. induction 1; cbn; congruence. Qed.

Theorem movl_steers c fuel xd s tr s1 h s2 moves :
  let k := (length xd / 6)%nat in
  usePosdMovl c = false -> 0 < duration s -> exec (movl c fuel xd) s tr (Done true) s1 ->
  history c s1 h s2 -> Forall (fun e => lets_go_on (fst (fst e))) h ->
  Forall as_kdl (trace_of h) -> Forall (moves_as_asked (numJoints c) k moves) (trace_of h) ->
  exists from target start, from_to (numJoints c) s xd tr from target /\ In (Now, start) tr /\
  ((forall i, (i < k)%nat -> measurable (pose_at from i) (pose_at target i)) ->
   exists move, (forall i, (i < k)%nat -> on_line (pose_at from i) (pose_at target i) (duration s) (move i)) /\
   forall o t b x a, In (o, t, b) h -> In (x, a) t -> motion x = true ->
     exists w now q cur des e vel, o = OCycle /\ x = VelocityMove w /\ In (Now, now) t /\ joints_read (numJoints c) t q /\
       In (FwdKin q, cur) t /\ ok cur = true /\ In (PoseDiff des (vals cur), e) t /\ let u := num now - num start in
       (forall i, (i < k)%nat -> u <= line_time (pose_at from i) (pose_at target i) (duration s) /\ velocity_of (move i) u (vel i)) /\
       length des = (6 * k)%nat /\ map fp (poses des) = map (fun i => fp (move i u)) (seq 0 k) /\ ((forall i, (i < k)%nat -> regular_log (fM (move i u))) -> poses des = map (fun i => move i u) (seq 0 k)) /\
       moves BASE_FRAME q w (map (fun i => corrected (vel i) (gain s * 1000 / IZR (cmcPeriodMs s)) (twist_at (vals e) i)) (seq 0 k))).
Proof.
  intros k P D E H L AK SV. destruct (movl_built _ _ _ _ _ _ _ E eq_refl) as (from & target & ts & start & FT & B & IN & T1 & T2 & T3 & T4 & T5 & T6).
  exists from, target, start. split; [exact FT|]. split; [exact IN|]. intros M. exists (line_move from target (duration s)).
  split; [intros i Hi; apply line_moves; auto|]. intros o t b x a I Ix Mx.
  assert (CY : forall s, same_view s1 s -> forall tr o s', exec (run c) s tr o s' -> kept s s' /\ cycled c (vel_motion (numJoints c) ts (num start) (loop_gain s1) BASE_FRAME true) tr).
  { intros s0 V tr0 o0 s0' E0. rewrite <- (same_gain _ _ V). destruct V as (V1 & V2 & _ & _ & _ & V6). rewrite <- T1, <- V1, <- T2, <- V2. eapply vel_run; eauto. congruence. }
  destruct (follow_gen c s1 _ CY h s1 s2 (kept_refl _) H L _ _ _ _ _ I Ix Mx) as (-> & PM).
  destruct PM as [Q|(ae & A1 & A2 & PM)]; [rewrite (quiet_in _ _ _ Q Ix) in Mx; discriminate|].
  destruct (PM _ _ Ix Mx) as (w & -> & (an & ys & vs & cur & e & g & cmd & ai & S1 & S2 & S3 & S4 & S5 & S6 & S7 & S8 & S9 & S10 & S11 & S12 & S13)).
  pose proof (in_trace_F _ _ _ _ _ AK I) as AKt. pose proof (in_trace_F _ _ _ _ _ SV I) as SVt. rewrite Forall_forall in SVt.
  destruct (SVt _ S10 S11) as (LN & MV). pose proof (SVt _ S7) as LE. cbn in LE. specialize (MV (eq_trans (proj1 (control_law_nth _ _ _ _ S9)) LE)).
  destruct (velocities_on_line _ _ _ _ _ _ _ _ D B AKt M S3) as (ws & W1 & W2).
  pose proof (F2_length _ _ _ W2) as LW. rewrite seq_length in LW. change (k = length ws) in LW.
  exists w, an, (fill 0 (numJoints c) (vals ae)), cur, (concat ys), e, (fun i => nth i ws twist_zero). split; [auto|]. split; [auto|]. split; [auto|].
  split; [now apply filled|]. split; [auto|]. split; [auto|]. split; [auto|]. split; [|split; [|split; [|split]]].
  - intros i Hi. split; [eapply times_of_lines; eauto|]. pose proof (F2_nth _ 0%nat twist_zero _ _ W2 i) as G. rewrite seq_length in G. specialize (G Hi). cbn beta in G.
    rewrite seq_nth in G by exact Hi. exact G.
  - erewrite written_length; [|eapply samples_on_line; eauto]. now rewrite map_length, seq_length.
  - erewrite positions_concat; [|eapply samples_on_line; eauto]. apply map_map.
  - intros RG. apply poses_concat; [eapply samples_on_line; eauto|now apply poses_on_line].
  - rewrite S13, firstn_all2 by lia. rewrite (commanded _ _ _ _ k S9 LE) in MV. erewrite map_ext_in; [exact MV|].
    intros i Hi. apply in_seq in Hi. cbn beta. rewrite (twist_nth _ _ i twist_zero W1) by lia. f_equal.
    destruct S8 as [S8|S8]; [exfalso; rewrite S8 in LE; change (0 = 6 * k)%nat in LE; clearbody k; clear -LE Hi; lia|]. unfold loop_gain in S8. destruct Z.eqb; [discriminate|]. injection S8 as <-. rewrite T4, T5. unfold Rdiv. ring.
Qed.
