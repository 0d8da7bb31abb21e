(** Lemmas: poses told and asked for through the network. *)
From Coq Require Import Reals ZArith List Bool Lra Lia.
From Verif Require Import Kdl KdlFacts KdlRot KdlRotFacts KinRepSpec Vocab Bcc BccSpec BccLineSpec BccCmdSpec BccFacts BccAll Sys SysSpec SysFacts SysFacts2 SysFacts5 Net NetSpec NetFacts.
From Verif Require Rpc RpcSpec RpcFacts KinRep KdlSolver KdlSolverFacts SolverLoopSpec Screw Config ConfigSpec LineFacts2.
Import ListNotations.
Open Scope R_scope.
Local Notation S := Datatypes.S.
Local Notation length := List.length.

(** ** The tool set through the client *)
Lemma local_history c s h s' : session (locally c) s h s' -> six_numbers h ->
  exists e, history c s e s' /\ trace_of e = calls h /\ six_tools e /\ forall t, tool_in_use t e = tool_set t h.
Proof.
  intros X. induction X as [|s s1 s2 a tr x h Y X IH]; intros SN; [exists []; repeat split; constructor|].
  inversion SN as [|? ? N1 N2]; subst. destruct (IH N2) as (e & H & T & ST & TU).
  assert (W : exists o b, exec (do_op c o) s tr (Done b) s1 /\ match o with OTool x => a = Method (Rpc.RTool x) | _ => forall x, a <> Method (Rpc.RTool x) end).
  { destruct Y as [r fuel s tr y s1 E|s tr s1 E]; [|exists OCycle, true; split; [now apply run_op|discriminate]].
    destruct (method_op _ _ _ _ _ _ _ E) as (b & E'). exists (op_of fuel r), b. split; [exact E'|]. destruct r; cbn; try reflexivity; discriminate. }
  destruct W as (o & b & E & W). exists ((o, tr, b) :: e). split; [econstructor; eauto|]. split; [unfold trace_of, calls in *; cbn; now rewrite T|]. split.
  - constructor; [|exact ST]. destruct o; cbn; auto. rewrite W in N1. exact N1.
  - intros t. destruct o; cbn [tool_in_use tool_set]; try (rewrite W; apply TU);
      destruct a as [r|]; try apply TU; destruct r; try apply TU; exfalso; eapply W; reflexivity.
Qed.
Lemma asked_state c base s tr x state time s' : healthy s -> remotely c base s (Method Rpc.RStat) tr (Rpc.Stated x state time) s' ->
  exec (stat c true) s tr (Done (Some (x, state, time))) s'.
Proof.
  intros H R. apply remote_local in R; [|exact H|exact I]. inversion R as [r fuel ? ? a ? E|]; subst. cbn [method] in E. apply split_done in E. destruct E as ([[[y w] t]|] & X & E); [|discriminate].
  injection X as -> -> ->. exact E.
Qed.
Lemma assembled_health d robot cc sc c s v : assembled d robot cc sc c s v -> healthy s.
Proof. intros (g & dur & cmc & w & posd & ff & fr & timed & n & refs & ch & ik & sel & draws & O & _). eapply open_health; exact O. Qed.
Lemma session_health c s h s' : session (locally c) s h s' -> healthy s -> healthy s'.
Proof. intros X. induction X; auto. intros H0. apply IHX. eapply local_health; eauto. Qed.

Section Described.
Variables (d : device) (robot : nat -> option (R * R * R * R)) (cc : Config.chain_cfg) (sc : Config.solver_cfg) (c : cfg) (s : st) (v : KdlSolver.solver) (n : nat) (H0 HN : frame).
Hypothesis (A : assembled d robot cc sc c s v) (NL : Config.ch_numLinks cc = Some (Z.of_nat n)) (RO : Forall ConfigSpec.rotary (map (Config.ch_link cc) (seq 0 n)))
  (M0 : ConfigSpec.matrix_at (Config.ch_H0 cc) H0) (MN : ConfigSpec.matrix_at (Config.ch_HN cc) HN) (R0 : rigid H0) (RN : rigid HN).

Theorem client_told base h s1 v1 tr x state time s2 v2 : sendable h -> six_numbers h -> session (remotely c base) s h s1 -> served d v (calls h) v1 ->
  remotely c base s1 (Method Rpc.RStat) tr (Rpc.Stated x state time) s2 -> served d v1 tr v2 ->
  exists q f, joints_read n tr q /\ ConfigSpec.links_at (map (Config.ch_link cc) (seq 0 n)) (map (fun a => a * PI / 180) q) f /\ length x = 6%nat /\
    let g := fmul (fmul H0 (fmul f HN)) (tool_set fid h) in fp (pose_at x 0) = fp g /\ (regular_log (fM g) -> pose_at x 0 = g).
Proof.
  intros SE SN X SV R S2. pose proof (assembled_health _ _ _ _ _ _ _ A) as HS. apply (session_same c base) in X; [|exact HS|exact SE].
  pose proof (session_health _ _ _ _ X HS) as HS1. destruct (local_history _ _ _ _ X SN) as (e & H & T & ST & TU). rewrite <- T in SV.
  rewrite <- TU. exact (told_as_described _ _ _ _ _ _ _ _ _ _ _ _ _ _ _ _ _ _ _ A NL RO M0 MN R0 RN ST H SV (asked_state _ _ _ _ _ _ _ _ HS1 R) S2).
Qed.

(** the rotation vectors written *)
Lemma written g : rigid g -> regular_log (fM g) -> exists r, KinRep.frameToVector g = vlist (fp g) ++ vlist r /\ rot_of r = fM g /\ norm r <= PI.
Proof.
  intros RG RL. destruct (LineFacts2.axis_angle (fM g) RG RL) as (a & t & E & U & T & M).
  exists (GetRot (fM g)). split; [reflexivity|]. split; [now apply rot_of_GetRot|].
  unfold GetRot. rewrite E. cbn [fst snd]. rewrite norm_scale, (unit_norm a U), Rabs_pos_eq; lra.
Qed.
Lemma told_vector h s1 v1 tr x state time s2 v2 : six_tools h -> history c s h s1 -> served d v (trace_of h) v1 ->
  exec (stat c true) s1 tr (Done (Some (x, state, time))) s2 -> served d v1 tr v2 ->
  exists q f, joints_read n tr q /\ ConfigSpec.links_at (map (Config.ch_link cc) (seq 0 n)) (map (fun a => a * PI / 180) q) f /\
    let g := fmul (fmul H0 (fmul f HN)) (tool_in_use fid h) in rigid g /\ x = KinRep.frameToVector g.
Proof.
  intros ST H SV E S2. destruct (assembled_parts _ _ _ _ _ _ _ A) as (ch & CC & OP & _ & NJ & _).
  assert (D : Forall ConfigSpec.described (map (Config.ch_link cc) (seq 0 n))) by (eapply Forall_impl; [|exact RO]; apply ConfigFacts.rotary_described).
  destruct (ConfigFacts.cfg_chain_spec cc n ch NL D CC) as (NR & FK).
  destruct (stat_vector d ch v c s h s1 v1 tr x state time s2 v2 (cfg_rigid _ _ _ _ CC M0 MN R0 RN) OP NJ ST H SV E S2) as (a & f & IA & OA & SB & RF & ->).
  pose proof (fill_read (numJoints c) tr a IA OA) as J. set (q := fill 0 (numJoints c) (vals a)) in *.
  assert (LQ : length q = n) by (destruct J as (? & _ & _ & J & _); congruence).
  destruct (FK H0 HN (map KinRep.degToRad q) M0 MN ltac:(now rewrite map_length)) as (f0 & L0 & F0).
  assert (OR : KdlSolver.sv_original v = ch) by exact (proj1 (open_bare _ _ _ OP)). unfold stands_bare in SB. rewrite OR, F0 in SB. injection SB as <-.
  exists q, f0. rewrite NJ, NR in J. split; [exact J|]. split.
  - replace (map (fun a => a * PI / 180) q) with (map KinRep.degToRad q); [exact L0|]. apply map_ext. intros b. apply ConfigFacts.deg_rad.
  - cbv zeta. split; [|reflexivity]. apply rigid_mul; [exact RF|apply tool_rigid, rigid_id].
Qed.

Theorem transform_told base co o u h s1 v1 tr b s2 v2 : sendable h -> six_numbers h -> session (remotely c base) s h s1 -> served d v (calls h) v1 ->
  answered c base (Rpc.transform co o u) s1 [Rpc.VVocab VOCAB_CC_STAT] tr b s2 -> served d v1 tr v2 ->
  (b = Rpc.fail /\ exists a, In (GetEncoders, a) tr /\ ok a = false) \/
  exists q f, joints_read n tr q /\ ConfigSpec.links_at (map (Config.ch_link cc) (seq 0 n)) (map (fun a => a * PI / 180) q) f /\
    let g := fmul (fmul H0 (fmul f HN)) (tool_set fid h) in
    regular_log (fM g) -> writable_pos co (fp g) -> (forall r, norm r <= PI -> rot_of r = fM g -> writable o (fp g) r) ->
    exists lp lo state time, b = RpcSpec.state_message (lp ++ lo) state time /\ means_pos co lp (fp g) /\ means o u (fp g) lo (fM g).
Proof.
  intros SE SN X SV R S2. pose proof (assembled_health _ _ _ _ _ _ _ A) as HS. apply (session_same c base) in X; [|exact HS|exact SE].
  destruct (local_history _ _ _ _ X SN) as (e & H & T & ST & TU). rewrite <- T in SV. rewrite <- TU.
  inversion R as [b0 q k fuel ? ? a ? b' RS E K|b0 b' ? RS]; subst; [|discriminate RS]. cbn in RS. injection RS as <- <-. cbn [method] in E.
  apply split_done in E. destruct E as ([[[y w] t]|] & -> & E).
  - right. destruct (told_vector _ _ _ _ _ _ _ _ _ ST H SV E S2) as (q & f & J & L & RG & XV). exists q, f. split; [exact J|]. split; [exact L|]. intros g RL WP WR.
    destruct (written _ RG RL) as (r & XR & RR & NR). fold g in XV, XR. rewrite XR in XV. subst y.
    destruct (RpcFacts.state_converted tt base co o u (fp g) r w t WP (WR r NR RR)) as (k & lp & lo & K1 & K2 & K3 & K4). cbn in K1. injection K1 as <-.
    assert (EB : Some b = Some (RpcSpec.state_message (lp ++ lo) w t)) by (rewrite <- K; exact K2). injection EB as ->. rewrite RR in K4. eauto 10.
  - left. cbn in K. injection K as <-. split; [reflexivity|]. clear - E S2. unfold stat in E. cbn in E. destruct E as (a & t & -> & E).
    destruct (ok a) eqn:OA; [|exists a; split; [now left|exact OA]]. cbn in E. destruct E as (a1 & t1 & -> & E). destruct E as (a2 & t2 & -> & E).
    inversion S2 as [|? va ? ? ? Ha S3]; subst. inversion S3 as [|? vb ? ? ? Hb S4]; subst. inversion S4 as [|? vc ? ? ? Hc S5]; subst. cbn in Hc. destruct Hc as (_ & z & _ & OK & _).
    rewrite OK in E. cbn in E. destruct E as (_ & E & _). discriminate.
Qed.
End Described.

(** ** Commands in another representation *)
Lemma pose_reply cmd b base conv q k c fuel s tr a s' b' : RpcSpec.pose_command cmd -> (exists x, Rpc.client_send (cmd x) = Some b) -> Rpc.respond (Rpc.At tt) conv base b = Rpc.Ask tt q k ->
  exec (method c fuel q) s tr (Done a) s' -> k a = Some b' -> (a = Rpc.Failed <-> b' = Rpc.fail).
Proof.
  intros PC (x & SB) RS E K.
  assert (D : (k = Rpc.yes_no) \/ (exists y, q = Rpc.RInv y /\ k = fun r => Some (match r with Rpc.Nums q => map Rpc.VFloat q | _ => Rpc.fail end))).
  { destruct PC; cbn [Rpc.client_send Rpc.command] in SB; injection SB as <-; cbn -[Nat.ltb tl Rpc.numbers length] in RS; unfold Rpc.handleConsumer, Rpc.handleFunction in RS;
      (destruct Nat.ltb; [|discriminate]); destruct (Rpc.incoming conv _) as [[[] y]|]; try discriminate; injection RS as <- <-; eauto. }
  destruct D as [->|(y & -> & ->)].
  - unfold Rpc.yes_no in K. injection K as <-. destruct a; split; intros Y; try reflexivity; discriminate Y.
  - injection K as <-. cbn [method] in E. apply split_done in E. destruct E as ([z|] & -> & _); split; intros Y; try reflexivity; try discriminate Y. destruct z; discriminate Y.
Qed.
Theorem transform_command c base co o u p lp lo rm cmd b s tr b' s' : RpcSpec.pose_command cmd -> Rpc.client_send (cmd (lp ++ lo)) = Some b ->
  pose_supported co o = true -> means_pos co lp p -> means o u p lo rm -> regular_log rm \/ o = KinRep.AXIS_ANGLE_SCALED -> lp ++ lo <> [] ->
  answered c base (Rpc.transform co o u) s b tr b' s' ->
  exists x fuel a, length x = 6%nat /\ pose_at x 0 = F rm p /\ exec (method c fuel (cmd x)) s tr (Done a) s' /\ (a = Rpc.Failed <-> b' = Rpc.fail).
Proof.
  intros PC SB PS MP MO RL NE AN. destruct (RpcFacts.pose_converted tt base co o u p lp lo rm cmd b PC SB PS MP MO RL NE) as (r & k & RS & RR).
  destruct AN as [b q k' fuel s tr a s' b' RS' E K|b b' s RS']; [|rewrite RS in RS'; discriminate].
  pose proof (pose_reply cmd b base _ q k' c fuel s tr a s' b' PC (ex_intro _ _ SB) RS' E K) as Y. rewrite RS in RS'. injection RS' as <- <-.
  exists (vlist p ++ vlist r), fuel, a. split; [destruct p, r; reflexivity|]. split; [unfold pose_at; destruct p, r; cbn in *; now rewrite RR|]. split; [exact E|exact Y].
Qed.
Theorem transform_reaches d ch pre v r w px py c base co o u p lp lo rm s tr b s' v' :
  Screw.chain_ok ch -> KdlSolverFacts.strategy (dev_find d) -> opened d ch pre v -> SolverLoopSpec.wrist_problem v r w px py -> numJoints c = nr_of_joints (KdlSolver.sv_chain v) ->
  pose_supported co o = true -> means_pos co lp p -> means o u p lo rm -> regular_log rm \/ o = KinRep.AXIS_ANGLE_SCALED -> lp ++ lo <> [] ->
  answered c base (Rpc.transform co o u) s (Rpc.VVocab VOCAB_CC_MOVJ :: map Rpc.VFloat (lp ++ lo)) tr b s' -> b <> Rpc.fail -> through (unwarned d) v tr v' ->
  exists g q f target, joints_read (numJoints c) tr g /\ seen_from v (referenceFrame s) g (F rm p) target /\ stands v q f /\ within_tolerance v r w px py f target /\
    ((motions tr = [PositionMove q] /\ (exists a, In (PositionMove q, a) tr /\ ok a = true) /\ currentState s' = VOCAB_CC_MOVJ_CONTROLLING) \/
     (motions tr = [] /\ s' = s /\ ~ must_move (numJoints c) (qRefSpeeds c) g q)).
Proof.
  intros CO SG OP WP N PS MP MO RL NE AN NF TH.
  destruct (transform_command _ _ _ _ _ _ _ _ _ Rpc.RMovj _ _ _ _ _ RpcSpec.pc_movj eq_refl PS MP MO RL NE AN) as (x & fuel & a & LX & PX & E & Y).
  cbn [method] in E. apply split_done in E. destruct E as ([] & -> & E); [|exfalso; apply NF, Y; reflexivity].
  rewrite <- PX. exact (movj_reaches d ch pre v r w px py c CO SG OP WP N x s tr s' v' LX E TH).
Qed.
