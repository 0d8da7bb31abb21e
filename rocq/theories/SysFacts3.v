(** Lemmas: velocities that the controller sends carry the tool as asked. *)
From Coq Require Import Reals ZArith List Bool Lra Lia.
From Verif Require Import Kdl KdlFacts KdlRot KdlRotFacts KinRepSpec AsibotSpec LineSpec Vocab Bcc BccSpec BccKdl BccLineSpec BccCmdSpec BccFacts BccAll BccLineFacts BccLineFacts2
  BccLineFacts3 BccCmdFacts2 BccCmdFacts3 Sys SysSpec SysFacts SysFacts2.
From Verif Require Screw ScrewFacts Selector Builder KinRep KdlSolver KdlSolverFacts Tree TreeSpec TreeFacts5 SolverLoopFacts.
Import ListNotations.
Open Scope R_scope.
Local Notation S := Datatypes.S.
Local Notation length := List.length.
Local Notation sv_chain := KdlSolver.sv_chain.

Section Chain.
Variables (d : device) (ch : chain) (pre : list event) (v : KdlSolver.solver) (c : cfg).
Hypothesis (CO : Screw.chain_ok ch) (OP : opened d ch pre v) (N : numJoints c = nr_of_joints (sv_chain v)) (OJ : one_per_joint d v).
Let faithful q := TreeSpec.faithful_chain (dev_kdl d) v q.

Lemma faithful_alike s q : alike v s -> faithful q -> TreeSpec.faithful_chain (dev_kdl d) s q.
Proof. intros (A & _) F. unfold faithful, TreeSpec.faithful_chain in *. rewrite A. exact F. Qed.
Definition steers (frame : Z) (q w : list R) (ts : list KdlRot.twist) : Prop :=
  forall t, ts = [t] -> length q = nr_of_joints (sv_chain v) -> faithful q -> forall f, stands v q f -> carries v q w (turned frame f t).
Lemma moving_0 q w : length q = length w -> TreeSpec.moving q w 0 = q.
Proof.
  unfold TreeSpec.moving. revert w. induction q as [|x q IH]; intros [|y w] L; try discriminate; [reflexivity|]. cbn in *. f_equal; [ring|]. apply IH. lia.
Qed.
Lemma diff_steers s s' q x f a : alike v s -> answers d s (DiffInvKin q x f, a) s' -> ok a = true ->
  length (vals a) = nr_of_joints (sv_chain v) /\ (length x = (6 * 1)%nat -> steers f q (vals a) (twists x)).
Proof.
  intros A AN O. cbn [answers] in AN. destruct AN as (_ & T). unfold told in T.
  destruct (Tree.diffInvKin (dev_kdl d) s q x (frame_named f)) as [| |w] eqn:E; [contradiction|congruence|]. destruct T as (_ & ->).
  assert (LN : length w = nr_of_joints (sv_chain v)).
  { unfold Tree.diffInvKin in E. destruct (KdlSolver.joints_in _ _) as [qr|]; [|discriminate]. destruct (match frame_named f with KdlSolver.BASE_FRAME => _ | KdlSolver.TCP_FRAME => _ | KdlSolver.OTHER_FRAME => _ end); [|discriminate].
    destruct (Tree.c_vel _ _ _ _) as [qd|] eqn:V; [|discriminate]. injection E as <-. rewrite map_length. destruct A as (A & _). rewrite A in V. exact (OJ _ _ _ V). }
  split; [exact LN|]. intros L6 t Et LQ FF f0 SF.
  assert (FR : frame_named f = KdlSolver.BASE_FRAME \/ frame_named f = KdlSolver.TCP_FRAME).
  { destruct (frame_named f) eqn:X; auto. unfold Tree.diffInvKin in E. destruct (KdlSolver.joints_in _ _); discriminate. }
  destruct A as (A & AA). destruct (TreeFacts5.chain_velocity (dev_kdl d) s q ltac:(rewrite A; lia) (faithful_alike s q (conj A AA) FF) x w (frame_named f) FR E) as (p & P1 & P2).
  exists p. split; [intros u; unfold stands; rewrite <- A; apply P1|].
  assert (P0 : p 0 = f0). { destruct (P1 0) as (P10 & _). rewrite moving_0 in P10 by congruence. unfold stands in SF. rewrite A in P10. congruence. }
  rewrite P0 in P2. assert (TX : KinRep.vectorToTwist x = t).
  { do 7 (destruct x as [|? x]; try discriminate). cbn in Et. injection Et as <-. reflexivity. }
  rewrite TX in P2. unfold turned. unfold frame_named in *. destruct (Z.eqb f BASE_FRAME) eqn:E1.
  - apply Z.eqb_eq in E1. subst f. exact P2.
  - destruct (Z.eqb f TCP_FRAME); [exact P2|]. destruct FR; discriminate.
Qed.
Lemma served_moves t v1 v2 : ready v v1 -> Forall (fun e => keeps (fst e)) t -> served d v1 t v2 -> Forall (moves_as_asked (numJoints c) 1 steers) t.
Proof.
  intros R K H. apply (through_inv (answers d) (ready v) keeps v1 t v2) in H; auto.
  - destruct H as (_ & H). eapply Forall_impl; [|exact H]. intros [x a] (s & s' & (RA & RC) & AN). destruct x; cbn [moves_as_asked]; auto.
    + intros O. rewrite N. eapply diff_steers; eauto.
    + destruct AN as (_ & _ & ->). reflexivity.
  - intros s e s' (A & C) KE X. split; [eapply answers_alike; eauto|eapply answers_current; eauto].
Qed.
Lemma ready_v : ready v v. Proof. split; [apply alike_refl|exact (opened_current _ _ _ _ CO OP)]. Qed.
Lemma stands_some q : length q = numJoints c -> exists f, stands v q f.
Proof.
  intros L. destruct (fk_rigid_chain (sv_chain v) (map KinRep.degToRad q)) as (f & F & _); [apply ready_v|rewrite map_length; congruence|]. exists f. exact F.
Qed.

Theorem twist_carries x s tr s' v' : complete c -> wide c -> length x = 6%nat -> exec (twist c x) s tr (Done tt) s' -> served d v tr v' ->
  currentState s = VOCAB_CC_NOT_CONTROLLING -> streamingCommand s = VOCAB_CC_TWIST -> in_mode (numJoints c) VOCAB_CM_VELOCITY tr ->
  exists w, motions tr = [VelocityMove w] /\
  ((exists q f, joints_read (numJoints c) tr q /\ stands v q f /\ retreating c q w /\ slow c w /\
      (TreeSpec.faithful_chain (dev_kdl d) v q -> carries v q w (turned (referenceFrame s) f (twist_at x 0)))) \/
   (w = still (numJoints c) /\ (refused tr \/
      exists q a, joints_read (numJoints c) tr q /\ In (DiffInvKin q x (referenceFrame s), a) tr /\ ~ (retreating c q (vals a) /\ slow c (vals a))))).
Proof.
  intros CP W L E SV CS SC IM.
  assert (K : Forall (fun e => keeps (fst e)) tr).
  { assert (A : all keeps (fun _ _ => True) (twist c x)) by (apply all_twist; repeat split). exact (proj2 (all_exec keeps (fun _ _ => True) _ (fun _ => I) (fun _ _ _ _ _ => I) A _ _ _ _ E)). }
  destruct (twist_streams c x s tr s' steers 1 CP W L E (served_moves _ _ _ ready_v K SV) CS SC IM) as (w & M & [(q & J & MV & RT & SL)|Q]); exists w; (split; [exact M|]); [left|right; exact Q].
  assert (LQ : length q = numJoints c) by (destruct J as (? & _ & _ & J & _); exact J). destruct (stands_some q LQ) as (f & SF).
  exists q, f. split; [exact J|]. split; [exact SF|]. split; [exact RT|]. split; [exact SL|]. intros FF. apply (MV (twist_at x 0)); auto; [|congruence].
  unfold twists. rewrite L. reflexivity.
Qed.

Lemma pose_one x : length x = 6%nat -> poses x = [pose_at x 0].
Proof. intros L. unfold poses. rewrite L. reflexivity. Qed.
Lemma told_separates s s' des q cur e f g : answers d s (PoseDiff des (vals cur), e) s' -> length des = 6%nat -> vals cur = KinRep.frameToVector f -> stands v q f -> rigid f ->
  regular_log (fM f) -> poses des = [g] -> separates f g (twist_at (vals e) 0).
Proof.
  intros (_ & _ & VE) LD VC SF RF RL PD. rewrite pose_one in PD by exact LD. injection PD as PD.
  destruct (KdlSolverFacts.pose_diff_spec des (vals cur)) as (P1 & P2). rewrite <- VE in P1, P2. rewrite (frame_six des LD), PD, (frame_six (vals cur)), VC, pose_written in P1, P2 by (auto; rewrite VC; reflexivity).
  assert (TE : KinRep.vectorToTwist (vals e) = twist_at (vals e) 0) by (rewrite VE; reflexivity). rewrite TE in P1, P2. split; [exact P1|exact P2].
Qed.
Lemma told_displaced s s' des cur e f g : answers d s (PoseDiff des (vals cur), e) s' -> length des = 6%nat -> vals cur = KinRep.frameToVector f ->
  map fp (poses des) = [fp g] -> fp g = vadd (fp f) (t_vel (twist_at (vals e) 0)).
Proof.
  intros (_ & _ & VE) LD VC PD. rewrite pose_one in PD by exact LD. injection PD as PD.
  destruct (KdlSolverFacts.pose_diff_spec des (vals cur)) as (P1 & _). rewrite <- VE in P1. rewrite (frame_six des LD), (frame_six (vals cur)) in P1 by (rewrite VC; reflexivity).
  assert (TE : KinRep.vectorToTwist (vals e) = twist_at (vals e) 0) by (rewrite VE; reflexivity). rewrite TE in P1.
  assert (CF : fp (pose_at (vals cur) 0) = fp f) by (rewrite VC; unfold pose_at, KinRep.frameToVector; cbn [nth Nat.mul Nat.add fp]; destruct f as [? []]; reflexivity).
  rewrite CF in P1. rewrite <- P1. unfold pose_at. cbn [fp]. symmetry. destruct (fp g). rewrite <- PD. reflexivity.
Qed.
Lemma all_keeps s1 h s2 : history c s1 h s2 -> Forall (fun e => lets_go_on (fst (fst e)) /\ no_tool (fst (fst e))) h -> Forall (fun e => keeps (fst e)) (trace_of h).
Proof. intros H L. eapply history_keeps; [exact H|]. eapply Forall_impl; [|exact L]. intros ? X; apply X. Qed.

Theorem movl_carries fuel xd s tr s1 h s2 v1 v2 : usePosdMovl c = false -> 0 < duration s -> length xd = 6%nat -> exec (movl c fuel xd) s tr (Done true) s1 ->
  history c s1 h s2 -> Forall (fun e => lets_go_on (fst (fst e)) /\ no_tool (fst (fst e))) h ->
  Forall as_kdl (trace_of h) -> served d v tr v1 -> served d v1 (trace_of h) v2 ->
  exists g from start, joints_read (numJoints c) tr g /\ stands v g from /\ In (Now, start) tr /\
    let target := if Z.eqb (referenceFrame s) TCP_FRAME then fmul from (pose_at xd 0) else pose_at xd 0 in
    (regular_log (fM from) -> (referenceFrame s = TCP_FRAME -> regular_log (fM target)) -> measurable from target ->
     exists move, on_line from target (duration s) move /\
     forall o t b x a, In (o, t, b) h -> In (x, a) t -> motion x = true ->
       exists w now q f vel e, o = OCycle /\ x = VelocityMove w /\ In (Now, now) t /\ joints_read (numJoints c) t q /\ stands v q f /\ let u := num now - num start in
         u <= line_time from target (duration s) /\ velocity_of move u vel /\
         fp (move u) = vadd (fp f) (t_vel e) /\ (regular_log (fM f) -> regular_log (fM (move u)) -> separates f (move u) e) /\
         (TreeSpec.faithful_chain (dev_kdl d) v q -> carries v q w (corrected vel (gain s * 1000 / IZR (cmcPeriodMs s)) e))).
Proof.
  intros P D LX E H L AK SV1 SV2. set (k := (length xd / 6)%nat). assert (K : k = 1%nat) by (unfold k; rewrite LX; reflexivity).
  assert (K1 : Forall (fun e => keeps (fst e)) tr) by (apply (op_keeps c (OMovl fuel xd) s tr (Done true) s1); [discriminate|exact E]).
  assert (L1 : Forall (fun e => lets_go_on (fst (fst e))) h) by (eapply Forall_impl; [|exact L]; intros ? X; apply X).
  pose proof (all_keeps _ _ _ H L) as K2.
  assert (SV : served d v (tr ++ trace_of h) v2) by (eapply through_app; eauto).
  destruct (served_events d ch pre v CO OP (tr ++ trace_of h) v2 ltac:(apply Forall_app; auto) SV) as (_ & EV). apply Forall_app in EV. destruct EV as (EV1 & EV2).
  destruct (served_events d ch pre v CO OP tr v1 K1 SV1) as (RV1 & _). rewrite Forall_forall in EV1.
  pose proof (served_moves _ _ _ RV1 K2 SV2) as MA. rewrite <- K in MA.
  destruct (movl_steers c fuel xd s tr s1 h s2 _ P D E H L1 AK MA) as (from & target & start & ((g & a0 & J & I0 & O0 & ->) & F1 & F2) & IN & MS).
  destruct (EV1 _ I0) as (x0 & y0 & (AA & CC) & AN). assert (LG : length g = nr_of_joints (sv_chain v)) by (destruct J as (? & _ & _ & J & _); congruence).
  destruct (fwd_stands d v c N _ _ _ _ CC AA LG AN) as (f0 & SF & R0 & V0). exists g, f0, start. split; [exact J|]. split; [exact SF|]. split; [exact IN|]. intros tg RL RT M.
  assert (PF : pose_at (vals a0) 0 = f0) by (rewrite V0; now apply pose_written).
  assert (PT : pose_at target 0 = tg).
  { unfold tg in *. destruct (Z.eqb (referenceFrame s) TCP_FRAME) eqn:EZ.
    - apply Z.eqb_eq in EZ. destruct (F2 EZ) as (a1 & I1 & _ & ->). destruct (EV1 _ I1) as (x1 & y1 & _ & AN1). destruct AN1 as (_ & _ & ->).
      unfold KdlSolver.changeOrigin. rewrite (frame_six xd) by exact LX. rewrite (frame_six (vals a0)) by (rewrite V0; reflexivity). rewrite PF. apply pose_written; [|exact (RT EZ)].
      apply rigid_mul; [exact R0|apply pose_rigid].
    - apply Z.eqb_neq in EZ. now rewrite (F1 EZ). }
  fold k in MS. rewrite K in MS. destruct MS as (move & OL & MS).
  { intros i Hi. assert (i = 0%nat) as -> by lia. rewrite PF, PT. exact M. }
  specialize (OL 0%nat ltac:(lia)). rewrite PF, PT in OL. exists (move 0%nat). split; [exact OL|]. intros o t b x a I Ix Mx.
  destruct (MS _ _ _ _ _ I Ix Mx) as (w & now & q & cur & des & e & vel & EO & EX & I1 & I2 & I3 & I4 & I5 & Y1 & Y2 & Y5 & Y3 & Y4).
  pose proof (in_trace_F _ _ _ _ _ EV2 I) as EVt. rewrite Forall_forall in EVt.
  destruct (EVt _ I3) as (z1 & z2 & (B1 & B2) & B3). assert (LQ : length q = nr_of_joints (sv_chain v)) by (destruct I2 as (? & _ & _ & I2 & _); congruence).
  destruct (fwd_stands d v c N _ _ _ _ B2 B1 LQ B3) as (f & SQ & RQ & VQ). destruct (EVt _ I5) as (z3 & z4 & _ & B4).
  exists w, now, q, f, (vel 0%nat), (twist_at (vals e) 0). split; [exact EO|]. split; [exact EX|]. split; [exact I1|]. split; [exact I2|]. split; [exact SQ|].
  destruct (Y1 0%nat ltac:(lia)) as (T1 & T2). rewrite PF, PT in T1. split; [exact T1|]. split; [exact T2|]. split.
  - eapply told_displaced; eauto.
  - split; [intros RLF RLM; eapply told_separates; eauto; apply Y3; intros i Hi; assert (i = 0%nat) as -> by lia; exact RLM|].
    intros FF. pose proof (Y4 _ eq_refl LQ FF f SQ) as X. exact X.
Qed.

Theorem movv_carries xd s tr s1 h s2 v1 v2 : length xd = 6%nat -> exec (movv c xd) s tr (Done true) s1 ->
  history c s1 h s2 -> Forall (fun e => lets_go_on (fst (fst e)) /\ no_tool (fst (fst e))) h ->
  Forall as_kdl (trace_of h) -> served d v tr v1 -> served d v1 (trace_of h) v2 -> visible (twist_at xd 0) ->
  exists g from start, joints_read (numJoints c) tr g /\ stands v g from /\ In (Now, start) tr /\ (regular_log (fM from) ->
   forall o t b x a, In (o, t, b) h -> In (x, a) t -> motion x = true ->
     exists w now q f e, o = OCycle /\ x = VelocityMove w /\ In (Now, now) t /\ joints_read (numJoints c) t q /\ stands v q f /\
       let u := num now - num start in let there := going from (twist_at xd 0) u in
       (0 <= u -> u * speed (twist_at xd 0) <= 10 ->
         fp there = vadd (fp f) (t_vel e) /\ (regular_log (fM f) -> regular_log (fM there) -> separates f there e) /\
         (TreeSpec.faithful_chain (dev_kdl d) v q -> carries v q w (turned (referenceFrame s) f (corrected (twist_at xd 0) (gain s * 1000 / IZR (cmcPeriodMs s)) e))))).
Proof.
  intros LX E H L AK SV1 SV2 VS. set (k := (length xd / 6)%nat). assert (K : k = 1%nat) by (unfold k; rewrite LX; reflexivity).
  assert (K1 : Forall (fun e => keeps (fst e)) tr) by (apply (op_keeps c (OMovv xd) s tr (Done true) s1); [discriminate|exact E]).
  assert (L1 : Forall (fun e => lets_go_on (fst (fst e))) h) by (eapply Forall_impl; [|exact L]; intros ? X; apply X).
  pose proof (all_keeps _ _ _ H L) as K2.
  assert (SV : served d v (tr ++ trace_of h) v2) by (eapply through_app; eauto).
  destruct (served_events d ch pre v CO OP (tr ++ trace_of h) v2 ltac:(apply Forall_app; auto) SV) as (_ & EV). apply Forall_app in EV. destruct EV as (EV1 & EV2).
  destruct (served_events d ch pre v CO OP tr v1 K1 SV1) as (RV1 & _). rewrite Forall_forall in EV1.
  pose proof (served_moves _ _ _ RV1 K2 SV2) as MA. rewrite <- K in MA.
  destruct (movv_steers c xd s tr s1 h s2 _ E H L1 AK MA) as (from & start & (g & a0 & J & I0 & O0 & ->) & IN & MS).
  { fold k. rewrite K. intros i Hi. assert (i = 0%nat) as -> by lia. exact VS. }
  destruct (EV1 _ I0) as (x0 & y0 & (AA & CC) & AN). assert (LG : length g = nr_of_joints (sv_chain v)) by (destruct J as (? & _ & _ & J & _); congruence).
  destruct (fwd_stands d v c N _ _ _ _ CC AA LG AN) as (f0 & SF & R0 & V0). exists g, f0, start. split; [exact J|]. split; [exact SF|]. split; [exact IN|]. intros RL.
  assert (PF : pose_at (vals a0) 0 = f0) by (rewrite V0; now apply pose_written).
  intros o t b x a I Ix Mx.
  destruct (MS _ _ _ _ _ I Ix Mx) as (w & now & q & cur & des & e & EO & EX & I1 & I2 & I3 & I4 & I5 & Y).
  pose proof (in_trace_F _ _ _ _ _ EV2 I) as EVt. rewrite Forall_forall in EVt.
  destruct (EVt _ I3) as (z1 & z2 & (B1 & B2) & B3). assert (LQ : length q = nr_of_joints (sv_chain v)) by (destruct I2 as (? & _ & _ & I2 & _); congruence).
  destruct (fwd_stands d v c N _ _ _ _ B2 B1 LQ B3) as (f & SQ & RQ & VQ). destruct (EVt _ I5) as (z3 & z4 & _ & B4).
  exists w, now, q, f, (twist_at (vals e) 0). split; [exact EO|]. split; [exact EX|]. split; [exact I1|]. split; [exact I2|]. split; [exact SQ|].
  intros u there U0 U1. fold k in Y. rewrite K in Y. destruct Y as (Y2 & Y5 & Y3 & Y4 & _); [exact U0|intros i Hi; assert (i = 0%nat) as -> by lia; exact U1|]. cbn [seq map] in Y3, Y5. rewrite PF in Y3, Y5. split.
  - eapply told_displaced; eauto.
  - split; [intros RLF RLM; eapply told_separates; eauto; apply Y3; intros i Hi; assert (i = 0%nat) as -> by lia; rewrite PF; exact RLM|].
    intros FF. exact (Y4 _ eq_refl LQ FF f SQ).
Qed.
End Chain.
