(** Lemmas about the controller assembled with the solver: limits of the joints, and the pose told. *)
From Coq Require Import Reals ZArith List Bool Lra Lia String.
From Verif Require Import Kdl KdlFacts KdlRot KdlRotFacts KinRepSpec Vocab Bcc BccSpec BccLineSpec BccCmdSpec BccFacts7 Sys SysSpec SysFacts SysFacts4.
From Verif Require BccFacts3 Screw ScrewFacts Selector SelectorFacts Builder KinRep KinRepFacts KdlSolver KdlSolverFacts Tree Config ConfigSpec ConfigFacts SolverLoopFacts.
Import ListNotations.
Open Scope R_scope.
Local Notation S := Datatypes.S.
Local Notation length := List.length.

(** ** The limits that the solver works with *)
Definition bounds (lo hi : list R) (k : Selector.selector) : Prop := Selector.s_min k = lo /\ Selector.s_max k = hi.
Definition sel_of (v : KdlSolver.solver) := KdlSolver.ik_sel (KdlSolver.sv_ik v).
Lemma least_bounds s g b s' : Selector.find_least s g = Some (b, s') -> bounds (Selector.s_min s) (Selector.s_max s) s'.
Proof.
  unfold Selector.find_least. destruct (Selector.s_last s) as [i|].
  - destruct (nth_error _ i) as [c|]; [|discriminate]. destruct (Selector.c_valid c); intros [= <- <-]; split; reflexivity.
  - destruct (Selector.collect _ _ _ _) as [[|[r i] l]|]; [intros [= <- <-]; split; reflexivity| |discriminate]. destruct (nth_error _ i); [|discriminate]. intros [= <- <-]. split; reflexivity.
Qed.
Lemma find_bounds find s g b s' : KdlSolverFacts.strategy find -> find s g = Some (b, s') -> bounds (Selector.s_min s) (Selector.s_max s) s'.
Proof.
  intros [-> | ->]; [apply least_bounds|]. unfold Selector.find_gait. destruct (negb _); [intros [= <- <-]; split; reflexivity|].
  destruct (Selector.discard _) as [l|]; [|discriminate]. intros H. apply least_bounds in H. exact H.
Qed.
Lemma cart_bounds find k g h r q k' lo hi : KdlSolverFacts.strategy find -> bounds lo hi (KdlSolver.ik_sel k) -> KdlSolver.cart_to_jnt find k g h = Some (r, q, k') ->
  bounds lo hi (KdlSolver.ik_sel k') /\
  forall q0, q = Some q0 -> forall i x a b, nth_error q0 i = Some x -> nth_error lo i = Some a -> nth_error hi i = Some b -> a - kdl_eps <= x <= b + kdl_eps.
Proof.
  intros ST (B1 & B2). unfold KdlSolver.cart_to_jnt. destruct (Z.eqb _ _); [intros [= <- <- <-]; split; [split; assumption|discriminate]|].
  destruct (IkProblem.ik_solve _ _ _ _) as [[flag cands]|]; [|discriminate].
  destruct (Selector.configure _ _) as [[b s1]|] eqn:CF; [|discriminate]. unfold Selector.configure in CF. destruct (Selector.build_configs _ _ _) as [l|] eqn:BC; [|discriminate].
  injection CF as EX <-. destruct b; [|intros [= <- <- <-]; split; [split; assumption|discriminate]].
  destruct (find _ g) as [[b s2]|] eqn:FD; [|discriminate]. pose proof (find_bounds _ _ _ _ _ ST FD) as (F1 & F2). cbn [Selector.s_min Selector.s_max] in F1, F2.
  destruct b; [|intros [= <- <- <-]; split; [split; cbn; congruence|discriminate]].
  destruct (Selector.retrievePose s2) as [q1|] eqn:RP; [|discriminate].
  assert (V : exists c, In c l /\ Selector.c_valid c = true /\ Selector.retrievePose s2 = Some (Selector.c_q c)) by (destruct ST; subst find; [apply KdlSolverFacts.least_valid in FD|apply KdlSolverFacts.gait_valid in FD]; exact FD).
  destruct V as (c & I & V & E). rewrite RP in E. injection E as ->. destruct (KdlSolverFacts.build_in _ _ _ _ BC c I) as [IC VC]. rewrite V in VC.
  intros H. assert (q = Some (Selector.c_q c) /\ KdlSolver.ik_sel k' = s2) as (-> & ->) by (destruct flag; injection H as <- <- <-; auto).
  split; [split; congruence|]. intros q0 [= <-]. rewrite <- B1, <- B2. now apply KdlSolverFacts.validate_in.
Qed.
Lemma inv_bounds find s x g fr r s' lo hi : KdlSolverFacts.strategy find -> bounds lo hi (sel_of s) -> KdlSolver.invKin find s x g fr = Some (r, s') ->
  bounds lo hi (sel_of s') /\
  forall qd, r = Some qd -> forall i x a b, nth_error qd i = Some x -> nth_error lo i = Some a -> nth_error hi i = Some b -> KinRep.radToDeg (a - kdl_eps) <= x <= KinRep.radToDeg (b + kdl_eps).
Proof.
  intros ST B. unfold KdlSolver.invKin. destruct (KdlSolver.joints_in _ _) as [qr|]; [|discriminate].
  destruct (match fr with KdlSolver.BASE_FRAME => _ | KdlSolver.TCP_FRAME => _ | KdlSolver.OTHER_FRAME => _ end) as [[h|]|]; [| |discriminate].
  - destruct (KdlSolver.cart_to_jnt _ _ _ _) as [[[z q] k]|] eqn:CJ; [|discriminate]. destruct (cart_bounds _ _ _ _ _ _ _ _ _ ST B CJ) as (B' & V). intros H.
    assert (G : s' = KdlSolver.Sv (KdlSolver.sv_chain s) (KdlSolver.sv_original s) k /\ forall qd, r = Some qd -> exists q0, q = Some q0 /\ qd = map KinRep.radToDeg q0).
    { destruct (Z.ltb z 0); [injection H as <- <-; split; [reflexivity|discriminate]|]. destruct q as [q0|]; [|discriminate]. injection H as <- <-. split; [reflexivity|]. intros qd [= <-]; eauto. }
    destruct G as (-> & G). split; [exact B'|]. intros qd R0 i y a b N1 N2 N3. destruct (G _ R0) as (q0 & -> & ->).
    rewrite nth_error_map in N1. destruct (nth_error q0 i) as [z0|] eqn:N0; [|discriminate]. injection N1 as <-. pose proof (V _ eq_refl _ _ _ _ N0 N2 N3) as [V1 V2].
    assert (P : 0 < 180 / PI) by (apply Rdiv_lt_0_compat; [lra|apply PI_RGT_0]).
    assert (MON : forall u v, u <= v -> KinRep.radToDeg u <= KinRep.radToDeg v) by (intros u w L; unfold KinRep.radToDeg; nra).
    split; apply MON; assumption.
  - intros [= <- <-]. split; [exact B|discriminate].
Qed.

Lemma update_bounds fuel draws c k k' : KdlSolver.st_update fuel draws c k = Builder.Returns k' -> KdlSolver.ik_sel k' = KdlSolver.ik_sel k.
Proof. unfold KdlSolver.st_update. destruct (Builder.build _ _ _) as [[[[p ss] rev]|]| |]; try discriminate; intros [= <-]; reflexivity. Qed.
Lemma answers_bounds d s e s' lo hi : KdlSolverFacts.strategy (dev_find d) -> bounds lo hi (sel_of s) -> answers d s e s' -> bounds lo hi (sel_of s').
Proof.
  destruct e as [x a]. intros ST B H. destruct x; cbn [answers] in H; try (now subst); try (destruct H as (-> & _); exact B).
  - destruct H as (r & H & _). exact (proj1 (inv_bounds _ _ _ _ _ _ _ _ _ ST B H)).
  - destruct H as (_ & dr & H). unfold KdlSolver.restoreOriginalChain in H. destruct (KdlSolver.st_update _ _ _ _) as [k| |] eqn:U; try discriminate. injection H as <-.
    apply update_bounds in U. unfold sel_of, bounds. cbn. rewrite U. exact B.
  - destruct H as (_ & dr & H). unfold KdlSolver.appendLink in H. destruct (KdlSolver.st_update _ _ _ _) as [k| |] eqn:U; try discriminate. injection H as <-.
    apply update_bounds in U. unfold sel_of, bounds. cbn. rewrite U. exact B.
Qed.
Lemma served_bounds d v t v' lo hi : KdlSolverFacts.strategy (dev_find d) -> bounds lo hi (sel_of v) -> served d v t v' ->
  forall x g f a, In (InvKin x g f, a) t -> ok a = true ->
  forall i y m n, nth_error (vals a) i = Some y -> nth_error lo i = Some m -> nth_error hi i = Some n -> KinRep.radToDeg (m - kdl_eps) <= y <= KinRep.radToDeg (n + kdl_eps).
Proof.
  intros ST B H. induction H as [|s s1 s2 e tr He Ht IH]; intros x g f a I O; [destruct I|]. destruct I as [->|I].
  - cbn [answers] in He. destruct He as (r & IV & AN). destruct r as [qd|]; [|congruence]. destruct AN as (_ & V). destruct (inv_bounds _ _ _ _ _ _ _ _ _ ST B IV) as (_ & G).
    rewrite V. exact (G _ eq_refl).
  - eapply IH; eauto. eapply answers_bounds; eauto.
Qed.

(** ** What open leaves *)
Lemma selects_strategy d ik sel : selects d ik sel -> KdlSolverFacts.strategy (dev_find d).
Proof. destruct ik as [|[] |[] |[] |[]]; cbn; try contradiction; intros (-> & _); [now left|now right]. Qed.
Lemma degrees_limits n mins maxs lo hi : Config.retrieveJointLimits n (Some mins) (Some maxs) = Some (lo, hi) -> length mins = n /\ length maxs = n /\ lo = map KinRep.degToRad mins /\ hi = map KinRep.degToRad maxs.
Proof.
  cbn. destruct (Nat.eqb_spec (length maxs) n) as [L1|]; cbn; [|discriminate]. destruct (Nat.eqb_spec (length mins) n) as [L2|]; cbn; [|discriminate].
  destruct (Config.limits_ok _ _); [|discriminate]. intros [= <- <-]. auto.
Qed.
Lemma assembled_parts d robot cc sc c s v : assembled d robot cc sc c s v ->
  exists ch, Config.cfg_chain cc = Some ch /\ opened d ch [] v /\ KdlSolverFacts.strategy (dev_find d) /\ numJoints c = nr_of_joints ch /\ complete c /\
    (forall j, (j < numJoints c)%nat -> robot j = Some (nth j (qMin c) 0, nth j (qMax c) 0, nth j (qdotMin c) 0, nth j (qdotMax c) 0)) /\
    bounds (map KinRep.degToRad (qMin c)) (map KinRep.degToRad (qMax c)) (sel_of v) /\ currentState s = VOCAB_CC_NOT_CONTROLLING.
Proof.
  intros (g & dur & cmc & w & posd & ff & frame & timed & n & refs & ch & ik & sel & draws & OP & KO & SE & SO). exists ch.
  pose proof (open_robot _ _ _ _ _ _ _ _ _ _ _ _ _ _ _ OP) as (CP & NJ & RB).
  split; [eapply ConfigFacts.kdl_open_chain; exact KO|]. split; [exists draws, sel, v; split; [exact SO|constructor]|]. split; [eapply selects_strategy; exact SE|].
  assert (N : n = nr_of_joints ch /\ currentState s = VOCAB_CC_NOT_CONTROLLING).
  { unfold open in OP. destruct (ff && negb posd); [discriminate|]. destruct (negb _ && negb _); [discriminate|]. destruct refs; [|discriminate].
    destruct (open_limits _ _ _) as [[[[? ?] ?] ?]|]; [|discriminate]. destruct (Nat.eqb_spec (nr_of_joints ch) n) as [E|]; cbn [negb] in OP; [|discriminate].
    injection OP as <- <-. auto. }
  destruct N as (N & CS). split; [congruence|]. split; [exact CP|]. split; [rewrite NJ; exact RB|]. split; [|exact CS].
  unfold KdlSolver.sv_open, KdlSolver.st_create in SO. destruct (Builder.build _ _ _) as [[[[p ss] rev]|]| |]; try discriminate. injection SO as <-. unfold sel_of. cbn.
  unfold Config.kdl_open in KO. destruct (Config.cfg_chain cc) as [k|]; [|discriminate]. destruct (negb _); [discriminate|].
  cbn [with_limits Config.sc_mins Config.sc_maxs Config.sc_strategy] in KO.
  destruct (String.eqb _ "lma"%string); [destruct (Nat.eqb _ 6); [|discriminate]; injection KO as <- <-; contradiction|].
  destruct (String.eqb _ "nrjl"%string); [destruct (Config.retrieveJointLimits _ _ _); [|discriminate]; injection KO as <- <-; contradiction|].
  destruct (String.eqb _ "st"%string); [|destruct (String.eqb _ "id"%string); [|discriminate]; destruct (Config.retrieveJointLimits _ _ _); [|discriminate]; injection KO as <- <-; contradiction].
  destruct (Config.retrieveJointLimits _ _ _) as [[lo hi]|] eqn:RL; [|discriminate]. apply degrees_limits in RL. destruct RL as (_ & _ & -> & ->).
  destruct (String.eqb _ _); [|destruct (String.eqb _ _); [|discriminate]]; injection KO as <- <-; destruct SE as (_ & ->); split; reflexivity.
Qed.

(** ** Joint limits *)
Theorem positions_limited d robot cc sc c s v h s' v' : assembled d robot cc sc c s v -> history c s h s' -> served d v (trace_of h) v' ->
  forall x a q, In (x, a) (trace_of h) -> sends_positions x q -> within_robot_limits robot (numJoints c) q.
Proof.
  intros A H SV x a q I S1. destruct (assembled_parts _ _ _ _ _ _ _ A) as (ch & _ & _ & ST & NJ & (C1 & C2 & _) & RB & B & _).
  destruct (history_from _ _ _ _ H _ _ _ I S1) as (y & g & f & i & J & O & L & ->). split; [rewrite firstn_length; lia|]. intros j Hj.
  do 4 eexists. split; [exact (RB j Hj)|]. rewrite BccFacts3.nth_firstn by exact Hj.
  assert (E : forall u, (j < length u)%nat -> nth_error u j = Some (nth j u 0)) by (intros; now apply nth_error_nth').
  pose proof (served_bounds _ _ _ _ _ _ ST B SV _ _ _ _ J O j (nth j (vals i) 0) (KinRep.degToRad (nth j (qMin c) 0)) (KinRep.degToRad (nth j (qMax c) 0)) ltac:(apply E; lia)) as G.
  rewrite !nth_error_map, !E in G by lia. specialize (G eq_refl eq_refl).
  assert (D : forall u e, KinRep.radToDeg (KinRep.degToRad u + e) = u + KinRep.radToDeg e) by (intros; unfold KinRep.radToDeg, KinRep.degToRad; field; apply PI_neq0).
  unfold Rminus in G. rewrite !D in G. replace (KinRep.radToDeg (- kdl_eps)) with (- KinRep.radToDeg kdl_eps) in G by (unfold KinRep.radToDeg; ring). exact G.
Qed.

(** ** The pose told, from the description of the links *)
Lemma turn_rigid a x : unit a -> rigid (ConfigSpec.turn a x).
Proof. intros U. unfold ConfigSpec.turn, rigid. cbn [fM]. now apply Rot2_rot. Qed.
Lemma motion_rigid t m x : In (t, m) ConfigSpec.motions -> rigid (m x).
Proof.
  intros H. cbn in H. repeat (destruct H as [[= <- <-]|H]; [first [apply turn_rigid; unfold unit, dot, vneg, ConfigSpec.ex, ConfigSpec.ey, ConfigSpec.ez; cbn; ring | apply rigid_trans]|]). contradiction.
Qed.
Lemma dh_rigid a al dd o : rigid (Config.dh_frame a al dd o).
Proof.
  pose proof (ConfigFacts.dh_spec a al dd 0 o) as H.
  assert (Z : ConfigSpec.turn ConfigSpec.ez 0 = fid) by (unfold ConfigSpec.turn; rewrite Rot2_zero; reflexivity). rewrite Z, fmul_id_l in H. rewrite H.
  assert (U : unit ConfigSpec.ez /\ unit ConfigSpec.ex) by (split; unfold unit, dot, ConfigSpec.ez, ConfigSpec.ex; cbn; ring). destruct U as (U1 & U2).
  apply rigid_mul; [now apply turn_rigid|]. apply rigid_mul; [apply rigid_trans|]. apply rigid_mul; [apply rigid_trans|now apply turn_rigid].
Qed.
Lemma link_rigid g b s x : Config.link_segment g = Some (Some (b, s)) -> rigid (segment_pose s x).
Proof.
  destruct g as [[l|] o]; unfold Config.link_segment; cbn [Config.lg_dh Config.lg_xyz].
  - intros [= <- <-]. rewrite ConfigFacts.mk_segment_pose by (apply ConfigFacts.axis_pose0; discriminate). apply rigid_mul; [|apply dh_rigid].
    unfold joint_pose, Config.axis_joint. cbn [j_type j_scale j_offset]. rewrite RotZ_Rot2. unfold rigid. cbn [fM]. apply Rot2_rot. unfold unit, dot; cbn; ring.
  - destruct o as [l|]; [|discriminate]. destruct (Config.type_joint (Config.xl_type l)) as [j|] eqn:T; [|discriminate]. intros [= <- <-].
    destruct (ConfigFacts.in_motions _ (ConfigFacts.type_joint_some _ _ T)) as (m & M). destruct (ConfigFacts.type_joint_spec _ _ M) as (j' & T' & _ & P0 & P). assert (j' = j) as -> by congruence.
    rewrite ConfigFacts.mk_segment_pose by exact P0. apply rigid_mul; [rewrite P; eapply motion_rigid; exact M|apply rigid_trans].
Qed.
Lemma segments_rigid gs : forall i ss, Config.link_segments i gs = Some ss -> rigid_links (map snd ss).
Proof.
  induction gs as [|g gs IH]; intros i ss; cbn [Config.link_segments]; [intros [= <-]; constructor|].
  destruct (Config.link_segment g) as [o|] eqn:G; [|discriminate]. destruct (Config.link_segments _ gs) as [ss'|] eqn:SS; [|discriminate]. intros [= <-].
  destruct o as [[b s]|]; [|eapply IH; exact SS]. cbn [map snd]. constructor; [intros x; eapply link_rigid; exact G|eapply IH; exact SS].
Qed.
Lemma cfg_rigid cc ch H0 HN : Config.cfg_chain cc = Some ch -> ConfigSpec.matrix_at (Config.ch_H0 cc) H0 -> ConfigSpec.matrix_at (Config.ch_HN cc) HN -> rigid H0 -> rigid HN -> rigid_links ch.
Proof.
  unfold Config.cfg_chain. destruct (Config.link_segments _ _) as [ss|] eqn:SS; [|discriminate]. intros [= <-] M0 MN R0 RN. apply ConfigFacts.matrix_frame_spec in M0, MN.
  constructor; [intros x; rewrite ConfigFacts.none_pose, M0; exact R0|]. apply Forall_app. split; [eapply segments_rigid; exact SS|]. constructor; [intros x; rewrite ConfigFacts.none_pose, MN; exact RN|constructor].
Qed.
Theorem told_as_described d robot cc sc c s v n H0 HN h s1 v1 tr x state time s2 v2 : assembled d robot cc sc c s v ->
  Config.ch_numLinks cc = Some (Z.of_nat n) -> Forall ConfigSpec.rotary (map (Config.ch_link cc) (seq 0 n)) ->
  ConfigSpec.matrix_at (Config.ch_H0 cc) H0 -> ConfigSpec.matrix_at (Config.ch_HN cc) HN -> rigid H0 -> rigid HN ->
  six_tools h -> history c s h s1 -> served d v (trace_of h) v1 ->
  exec (stat c true) s1 tr (Done (Some (x, state, time))) s2 -> served d v1 tr v2 ->
  exists q f, joints_read n tr q /\ ConfigSpec.links_at (map (Config.ch_link cc) (seq 0 n)) (map (fun a => a * PI / 180) q) f /\ length x = 6%nat /\
    let g := fmul (fmul H0 (fmul f HN)) (tool_in_use fid h) in fp (pose_at x 0) = fp g /\ (regular_log (fM g) -> pose_at x 0 = g).
Proof.
  intros A NL RO M0 MN R0 RN ST H SV E S2. destruct (assembled_parts _ _ _ _ _ _ _ A) as (ch & CC & OP & _ & NJ & _).
  assert (D : Forall ConfigSpec.described (map (Config.ch_link cc) (seq 0 n))) by (eapply Forall_impl; [|exact RO]; apply ConfigFacts.rotary_described).
  destruct (ConfigFacts.cfg_chain_spec cc n ch NL D CC) as (NR & FK).
  destruct (stat_told d ch v c s h s1 v1 tr x state time s2 v2 (cfg_rigid _ _ _ _ CC M0 MN R0 RN) OP NJ ST H SV E S2) as (q & f & J & SB & LX & G).
  assert (LQ : length q = n) by (destruct J as (? & _ & _ & J & _); congruence).
  destruct (FK H0 HN (map KinRep.degToRad q) M0 MN ltac:(now rewrite map_length)) as (f0 & L0 & F0).
  assert (OR : KdlSolver.sv_original v = ch) by exact (proj1 (open_bare _ _ _ OP)). unfold stands_bare in SB. rewrite OR, F0 in SB. injection SB as <-.
  exists q, f0. rewrite NJ, NR in J. split; [exact J|]. split; [|split; [exact LX|exact G]].
  replace (map (fun a => a * PI / 180) q) with (map KinRep.degToRad q); [exact L0|]. apply map_ext. intros a. apply ConfigFacts.deg_rad.
Qed.
