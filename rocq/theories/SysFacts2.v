(** Lemmas: positions that the controller sends bring the tool where it was asked to be. *)
From Coq Require Import Reals ZArith List Bool Lra Lia.
From Verif Require Import Kdl KdlFacts KdlRot KdlRotFacts KinRepSpec LineSpec Vocab Bcc BccSpec BccKdl BccLineSpec BccCmdSpec BccFacts BccAll BccLineFacts BccLineFacts2
  BccCmdFacts2 BccCmdFacts3 Sys SysSpec SysFacts.
From Verif Require Screw ScrewFacts Selector Builder KinRep KdlSolver KdlSolverFacts Tree IkPoseSpec SolverLoopSpec SolverLoopFacts.
Import ListNotations.
Open Scope R_scope.
Local Notation S := Datatypes.S.
Local Notation length := List.length.
Local Notation sv_chain := KdlSolver.sv_chain.
Local Notation strategy find := (find = Selector.find_least \/ find = Selector.find_gait).

Lemma unwarned_answers d s t s' : through (unwarned d) s t s' -> served d s t s'.
Proof. apply through_weaken. intros ? ? ? H. exact (proj1 H). Qed.
Definition ready (v s : KdlSolver.solver) : Prop := alike v s /\ SolverLoopFacts.current s.
Lemma unwarned_ready d v s e s' : ready v s -> keeps (fst e) -> unwarned d s e s' -> ready v s'.
Proof. intros (A & C) K (H & _). split; [eapply answers_alike; eauto|eapply answers_current; eauto]. Qed.
Lemma ready_events d v t v' : SolverLoopFacts.current v -> Forall (fun e => keeps (fst e)) t -> through (unwarned d) v t v' ->
  ready v v' /\ Forall (fun e => exists a b, ready v a /\ unwarned d a e b) t.
Proof. intros C K H. apply (through_inv (unwarned d) (ready v) keeps v t v'); auto. intros; eapply unwarned_ready; eauto. split; [apply alike_refl|exact C]. Qed.

Lemma wrist_alike v s r w x y : alike v s -> SolverLoopSpec.wrist_problem v r w x y -> SolverLoopSpec.wrist_problem s r w x y.
Proof. intros (_ & _ & A3 & A4 & _). unfold SolverLoopSpec.wrist_problem. rewrite A3, A4. auto. Qed.
Lemma named_base : frame_named BASE_FRAME = KdlSolver.BASE_FRAME. Proof. reflexivity. Qed.
Definition brings (v : KdlSolver.solver) (r w px py : vec) (frame : Z) (g q : list R) (ps : list Kdl.frame) : Prop :=
  forall p, ps = [p] -> length g = nr_of_joints (sv_chain v) ->
    exists h target, stands v q h /\ seen_from v frame g p target /\ within_tolerance v r w px py h target.
Lemma poses_one x : length x = 6%nat -> poses x = [pose_at x 0].
Proof. intros H. unfold poses. rewrite H. reflexivity. Qed.
Lemma frame_six x : length x = 6%nat -> KinRep.vectorToFrame x = pose_at x 0.
Proof. intros H. now rewrite pose_of_six. Qed.
Lemma inv_reaches d v s x g f a s' r w px py : strategy (dev_find d) -> ready v s -> SolverLoopSpec.wrist_problem v r w px py ->
  unwarned d s (InvKin x g f, a) s' -> ok a = true ->
  length (vals a) = nr_of_joints (sv_chain v) /\ (length x = 6%nat -> brings v r w px py f g (vals a) (poses x)).
Proof.
  intros ST (A & C) W ((res & IV & R) & NE) O. specialize (NE O). pose proof (wrist_alike _ _ _ _ _ _ A W) as W'. destruct A as (A1 & A2 & A3 & A4 & A5).
  destruct res as [qd|]; [|congruence]. destruct R as (_ & ->).
  assert (AS : exists target, SolverLoopSpec.asked s x g (frame_named f) target /\ (length g = nr_of_joints (sv_chain v) -> seen_from v f g (KinRep.vectorToFrame x) target)).
  { unfold frame_named, seen_from, stands in *. destruct (Z.eqb f BASE_FRAME) eqn:E1; [|destruct (Z.eqb f TCP_FRAME) eqn:E2].
    - apply Z.eqb_eq in E1. exists (KinRep.vectorToFrame x). split; [reflexivity|left; auto].
    - apply Z.eqb_eq in E2. unfold KdlSolver.invKin in IV. destruct (KdlSolver.joints_in _ _) as [qr|] eqn:J; [|discriminate]. 
      destruct (chain_fwd_kin (sv_chain s) qr) as [h|] eqn:H; [|discriminate].
      exists (fmul h (KinRep.vectorToFrame x)). split; [exists h, qr; auto|]. intros LG. right. split; [exact E2|]. exists h. split; [|reflexivity].
      unfold KdlSolver.joints_in in J. rewrite A1, <- LG, Nat.leb_refl, firstn_all in J. injection J as <-. rewrite <- A1. exact H.
    - unfold KdlSolver.invKin in IV. destruct (KdlSolver.joints_in _ _); discriminate. }
  destruct AS as (target & AS & SF).
  destruct (SolverLoopFacts.loop_stands _ _ _ _ _ _ _ _ _ _ _ _ ST C W' AS IV NE) as (LQ & h & F & _ & B).
  rewrite A1 in LQ, F. split; [exact LQ|]. intros L p P LG. rewrite poses_one in P by exact L. injection P as <-. rewrite <- frame_six by exact L.
  exists h, target. split; [exact F|]. split; [exact (SF LG)|].
  unfold within_tolerance. rewrite A3, A5 in B. exact B.
Qed.
Lemma unwarned_solves d v t v' r w px py n : strategy (dev_find d) -> SolverLoopFacts.current v -> Forall (fun e => keeps (fst e)) t -> through (unwarned d) v t v' ->
  SolverLoopSpec.wrist_problem v r w px py -> n = nr_of_joints (sv_chain v) -> Forall (fun e => match e with (InvKin x _ _, _) => length x = 6%nat | _ => True end) t ->
  Forall (solves_in n (brings v r w px py)) t.
Proof.
  intros ST C K H W -> L. apply ready_events in H; auto. destruct H as (_ & H). rewrite Forall_forall in *. intros [x a] I. specialize (H _ I). specialize (L _ I).
  destruct x; cbn; auto. destruct H as (s & s' & Rd & U). intros O. destruct (inv_reaches _ _ _ _ _ _ _ _ _ _ _ _ ST Rd W U O). auto.
Qed.

(** ** Single targets *)
Definition asks_for (y : list R) (x : call) : Prop := match x with InvKin y' _ _ => y' = y | AppendLink _ | RestoreOriginalChain => False | _ => True end.
Lemma movj_asks c y s tr r s' : exec (movj c y) s tr r s' -> Forall (fun e => asks_for y (fst e)) tr.
Proof.
  intros E. assert (A : all (asks_for y) (fun _ _ => True) (movj c y)).
  { unfold movj. pall; try exact I; try reflexivity; try (intros; exact I). all: apply all_modes; repeat split. }
  exact (proj2 (all_exec (asks_for y) (fun _ _ => True) _ (fun _ => I) (fun _ _ _ _ _ => I) A _ _ _ _ E)).
Qed.
Lemma pose_asks c y s tr r s' : exec (pose c y) s tr r s' -> Forall (fun e => asks_for y (fst e)) tr.
Proof.
  intros E. assert (A : all (asks_for y) (fun _ _ => True) (pose c y)).
  { unfold pose. pall; try exact I; try reflexivity; try (intros; exact I). all: apply all_check; repeat split. }
  exact (proj2 (all_exec (asks_for y) (fun _ _ => True) _ (fun _ => I) (fun _ _ _ _ _ => I) A _ _ _ _ E)).
Qed.
Lemma asks_keeps y tr : Forall (fun e : event => asks_for y (fst e)) tr -> Forall (fun e => keeps (fst e)) tr.
Proof. apply Forall_impl. intros [x a]. destruct x; cbn; auto. Qed.
Lemma asks_six y tr : length y = 6%nat -> Forall (fun e : event => asks_for y (fst e)) tr -> Forall (fun e : event => match e with (InvKin x _ _, _) => length x = 6%nat | _ => True end) tr.
Proof. intros L. apply Forall_impl. intros [x a]. destruct x; cbn; auto. now intros ->. Qed.

Section Arm.
Variables (d : device) (ch : chain) (pre : list event) (v : KdlSolver.solver) (r w px py : vec) (c : cfg).
Hypothesis (CO : Screw.chain_ok ch) (ST : strategy (dev_find d)) (OP : opened d ch pre v) (WP : SolverLoopSpec.wrist_problem v r w px py)
  (N : numJoints c = nr_of_joints (sv_chain v)).

Theorem movj_reaches y s tr s' v' : length y = 6%nat -> exec (movj c y) s tr (Done true) s' -> through (unwarned d) v tr v' ->
  exists g q f target, joints_read (numJoints c) tr g /\ seen_from v (referenceFrame s) g (pose_at y 0) target /\ stands v q f /\ within_tolerance v r w px py f target /\
    ((motions tr = [PositionMove q] /\ (exists a, In (PositionMove q, a) tr /\ ok a = true) /\ currentState s' = VOCAB_CC_MOVJ_CONTROLLING) \/
     (motions tr = [] /\ s' = s /\ ~ must_move (numJoints c) (qRefSpeeds c) g q)).
Proof.
  intros L E H. pose proof (movj_asks _ _ _ _ _ _ E) as A.
  pose proof (unwarned_solves d v tr v' r w px py (numJoints c) ST (opened_current _ _ _ _ CO OP) (asks_keeps _ _ A) H WP N (asks_six _ _ L A)) as S1.
  destruct (movj_moves_to _ _ _ _ _ _ E S1) as (g & q & J & LQ & B & M).
  assert (LG : length g = numJoints c) by (destruct J as (? & _ & _ & J & _); exact J).
  destruct (B (pose_at y 0) (poses_one _ L) ltac:(congruence)) as (f & target & B1 & B2 & B3). exists g, q, f, target. auto 10.
Qed.
Theorem pose_reaches y s tr s' v' : complete c -> wide c -> length y = 6%nat -> exec (pose c y) s tr (Done tt) s' -> through (unwarned d) v tr v' ->
  currentState s = VOCAB_CC_NOT_CONTROLLING -> In (streamingCommand s) [VOCAB_CC_POSE; VOCAB_CC_MOVI] -> in_mode (numJoints c) VOCAB_CM_POSITION_DIRECT tr ->
  (exists g q f target, motions tr = [SetPositions q] /\ joints_read (numJoints c) tr g /\ seen_from v (referenceFrame s) g (pose_at y 0) target /\ stands v q f /\
     within_tolerance v r w px py f target) \/
  (motions tr = [] /\ (refused tr \/ exists q a e, joints_read (numJoints c) tr q /\ In (InvKin y q (referenceFrame s), a) tr /\ difference q (vals a) e /\ ~ retreating c q e)).
Proof.
  intros CP WD L E H CS SC IM. pose proof (pose_asks _ _ _ _ _ _ E) as A.
  pose proof (unwarned_solves d v tr v' r w px py (numJoints c) ST (opened_current _ _ _ _ CO OP) (asks_keeps _ _ A) H WP N (asks_six _ _ L A)) as S1.
  destruct (pose_streams _ _ _ _ _ _ CP WD E S1 CS SC IM) as [(g & q & e & M & J & B & _)|Q]; [left|right; exact Q].
  assert (LG : length g = numJoints c) by (destruct J as (? & _ & _ & J & _); exact J).
  destruct (B (pose_at y 0) (poses_one _ L) ltac:(congruence)) as (f & target & B1 & B2 & B3). exists g, q, f, target. auto 10.
Qed.

Lemma history_keeps c0 h : forall s s', history c0 s h s' -> Forall (fun e => no_tool (fst (fst e))) h -> Forall (fun e => keeps (fst e)) (trace_of h).
Proof.
  induction h as [|[[o t] b] h IH]; intros s s' H F; [constructor|]. inversion H as [|? sm ? ? ? ? ? E H']; subst. inversion F as [|? ? F1 F2]; subst. cbn [fst] in F1.
  unfold trace_of. cbn [map concat fst snd]. apply Forall_app. split; [|exact (IH _ _ H' F2)]. eapply op_keeps; [|exact E]. intros x ->. exact F1.
Qed.
Lemma alike_trans a b e : alike a b -> alike b e -> alike a e.
Proof. intros (A1 & A2 & A3 & A4 & A5) (B1 & B2 & B3 & B4 & B5). repeat split; congruence. Qed.
Lemma fwd_stands s q a s' : SolverLoopFacts.current s -> alike v s -> length q = nr_of_joints (sv_chain v) -> answers d s (FwdKin q, a) s' ->
  exists f, stands v q f /\ rigid f /\ vals a = KinRep.frameToVector f.
Proof.
  intros (C & _) (A & _) L (_ & y & F & _ & V). destruct (fk_rigid_chain (sv_chain s) (map KinRep.degToRad q) C ltac:(rewrite map_length; congruence)) as (f & E & R).
  exists f. split; [unfold stands; congruence|]. split; [exact R|]. unfold KdlSolver.fwdKin, KdlSolver.joints_in in F. rewrite A, <- L, Nat.leb_refl, firstn_all in F.
  rewrite <- A, E in F. cbn in F. congruence.
Qed.
Lemma served_events t v' : Forall (fun e => keeps (fst e)) t -> served d v t v' ->
  ready v v' /\ Forall (fun e => exists a b, ready v a /\ answers d a e b) t.
Proof.
  intros K H. apply (through_inv (answers d) (ready v) keeps v t v'); auto.
  - intros s e s' (A & C) KE X. split; [eapply answers_alike; eauto|eapply answers_current; eauto].
  - split; [apply alike_refl|exact (opened_current _ _ _ _ CO OP)].
Qed.

Theorem movl_reaches fuel xd s tr s1 h s2 v1 v2 : usePosdMovl c = true -> 0 < duration s -> length xd = 6%nat -> exec (movl c fuel xd) s tr (Done true) s1 ->
  history c s1 h s2 -> Forall (fun e => lets_go_on (fst (fst e)) /\ no_tool (fst (fst e))) h ->
  Forall as_kdl (trace_of h) -> served d v tr v1 -> through (unwarned d) v1 (trace_of h) v2 ->
  exists g from start, joints_read (numJoints c) tr g /\ stands v g from /\ In (Now, start) tr /\
    let target := if Z.eqb (referenceFrame s) TCP_FRAME then fmul from (pose_at xd 0) else pose_at xd 0 in
    (regular_log (fM from) -> (referenceFrame s = TCP_FRAME -> regular_log (fM target)) -> measurable from target ->
     exists move, on_line from target (duration s) move /\
     forall o t b x a, In (o, t, b) h -> In (x, a) t -> motion x = true ->
       exists q now f, o = OCycle /\ x = SetPositions q /\ In (Now, now) t /\ let u := num now - num start in
         u <= line_time from target (duration s) /\ stands v q f /\ (regular_log (fM (move u)) -> within_tolerance v r w px py f (move u))).
Proof.
  intros P D LX E H L AK SV1 SV2. destruct (movl_built _ _ _ _ _ _ _ E eq_refl) as (from & target & ts & start & ((g & a0 & J & I0 & O0 & ->) & F1 & F2) & B & IN & T1 & T2 & T3 & _).
  assert (K1 : Forall (fun e => keeps (fst e)) tr) by (apply (op_keeps c (OMovl fuel xd) s tr (Done true) s1); [discriminate|exact E]).
  assert (L1 : Forall (fun e => lets_go_on (fst (fst e))) h) by (eapply Forall_impl; [|exact L]; intros ? X; apply X).
  assert (K2 : Forall (fun e => keeps (fst e)) (trace_of h)) by (eapply history_keeps; [exact H|]; eapply Forall_impl; [|exact L]; intros ? X; apply X).
  destruct (served_events _ _ K1 SV1) as ((A1 & C1) & EV1). rewrite Forall_forall in EV1.
  destruct (EV1 _ I0) as (x0 & y0 & (AA & CC) & AN). assert (LG : length g = nr_of_joints (sv_chain v)) by (destruct J as (? & _ & _ & J & _); congruence).
  destruct (fwd_stands _ _ _ _ CC AA LG AN) as (f0 & SF & R0 & V0). exists g, f0, start. split; [exact J|]. split; [exact SF|]. split; [exact IN|]. intros tg RL RT M.
  assert (PF : pose_at (vals a0) 0 = f0) by (rewrite V0; now apply pose_written).
  assert (PT : pose_at target 0 = tg).
  { unfold tg in *. destruct (Z.eqb (referenceFrame s) TCP_FRAME) eqn:EZ.
    - apply Z.eqb_eq in EZ. destruct (F2 EZ) as (a1 & I1 & _ & ->). destruct (EV1 _ I1) as (x1 & y1 & _ & AN1). destruct AN1 as (_ & _ & ->).
      unfold KdlSolver.changeOrigin. rewrite (frame_six xd) by exact LX. rewrite (frame_six (vals a0)) by (rewrite V0; reflexivity). rewrite PF. apply pose_written; [|exact (RT EZ)].
      apply rigid_mul; [exact R0|apply pose_rigid].
    - apply Z.eqb_neq in EZ. now rewrite (F1 EZ). }
  set (k := (length xd / 6)%nat) in *. assert (K : k = 1%nat) by (unfold k; rewrite LX; reflexivity).
  assert (MM : forall i, (i < k)%nat -> measurable (pose_at (vals a0) i) (pose_at target i)).
  { intros i Hi. assert (i = 0%nat) as -> by lia. rewrite PF, PT. exact M. }
  pose proof (line_moves (vals a0) target (duration s) 0 ltac:(apply MM; lia) D) as (OL & _). rewrite PF, PT in OL.
  exists (line_move (vals a0) target (duration s) 0). split; [exact OL|]. intros o t b x a I Ix Mx.
  assert (CY : forall s, same_view s1 s -> forall tr o s', exec (run c) s tr o s' -> kept s s' /\ cycled c (posd_motion (numJoints c) ts (num start)) tr).
  { intros s0 (V1 & V2 & _ & _ & _ & V6) tr0 o0 s0' E0. rewrite <- T1, <- V1, <- T2, <- V2. eapply posd_run; eauto. congruence. }
  destruct (follow_gen c s1 _ CY h s1 s2 (kept_refl _) H L1 _ _ _ _ _ I Ix Mx) as (-> & PM).
  destruct PM as [Q|(ae & _ & OE & PM)]; [rewrite (quiet_in _ _ _ Q Ix) in Mx; discriminate|].
  destruct (PM _ _ Ix Mx) as (q & -> & (an & ys & ai & S1 & S2 & S3 & S4 & S5 & S6 & S7)).
  pose proof (in_trace_F _ _ _ _ _ AK I) as AKt.
  pose proof (samples_on_line _ _ _ _ _ _ _ _ D B AKt MM S2) as SL. rewrite K in SL. cbn [seq map] in SL. destruct ys as [|y0' [|? ?]]; [inversion SL| |inversion SL as [|? ? ? ? _ X]; inversion X].
  assert (EY : y0' = KinRep.frameToVector (line_move (vals a0) target (duration s) 0 (num an - num start))) by (inversion SL; assumption). clear SL. subst y0'.
  cbn [concat] in S4. rewrite app_nil_r in S4.
  destruct (ready_events d v1 (trace_of h) v2 C1 K2 SV2) as (_ & EV2). pose proof (in_trace_F _ _ _ _ _ EV2 I) as EVt. rewrite Forall_forall in EVt.
  destruct (EVt _ S4) as (z1 & z2 & (RA & RC) & UW).
  destruct (inv_reaches d v z1 _ _ _ _ z2 r w px py ST (conj (alike_trans _ _ _ A1 RA) RC) WP UW S5) as (LQ & BR).
  specialize (BR eq_refl). rewrite (poses_one (KinRep.frameToVector _)) in BR by reflexivity.
  destruct (BR _ eq_refl) as (f & tgt & G1 & G2 & G3).
  { unfold fill. rewrite map_length, seq_length. exact N. }
  destruct G2 as [(_ & ->)|(X & _)]; [|discriminate]. exists q, an, f. split; [reflexivity|]. split; [reflexivity|]. split; [exact S1|].
  split; [|split; [rewrite S7, firstn_all2 by lia; exact G1|]].
  - pose proof (times_of_lines _ _ _ _ _ _ _ D B AKt MM S3 0%nat ltac:(lia)) as TL. rewrite PF, PT in TL. exact TL.
  - intros RG. rewrite pose_written in G3; [exact G3| |exact RG]. apply line_rigid; auto. rewrite PF, PT; exact M.
Qed.
End Arm.
