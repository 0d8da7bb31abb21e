(** Lemmas about the controller together with the solver device. *)
From Coq Require Import Reals ZArith List Bool Lra Lia.
From Verif Require Import Kdl KdlFacts KdlRot KdlRotFacts KinRepSpec Vocab Bcc BccSpec BccKdl BccLineSpec BccCmdSpec BccFacts BccAll Sys SysSpec.
From Verif Require Screw ScrewFacts Selector Builder KinRep BccLineFacts2 KdlSolver KdlSolverFacts Tree IkPoseSpec SolverLoopSpec SolverLoopFacts.
Import ListNotations.
Open Scope R_scope.
Local Notation S := Datatypes.S.
Local Notation length := List.length.
Local Notation unit := Datatypes.unit.

(** ** One call after another *)
Lemma through_app P s t1 t2 s2 : through P s (t1 ++ t2) s2 <-> exists s1, through P s t1 s1 /\ through P s1 t2 s2.
Proof.
  split.
  - revert s. induction t1 as [|e t1 IH]; cbn; intros s H; [exists s; split; [constructor|exact H]|].
    inversion H as [|? s' ? ? ? He Ht]; subst. destruct (IH _ Ht) as (s1 & A & B). exists s1. split; [econstructor; eauto|exact B].
  - intros (s1 & A & B). induction A; cbn; [exact B|]. econstructor; eauto.
Qed.
Lemma through_weaken (P Q : KdlSolver.solver -> event -> KdlSolver.solver -> Prop) s t s' : (forall s e s', P s e s' -> Q s e s') -> through P s t s' -> through Q s t s'.
Proof. intros W H. induction H; econstructor; eauto. Qed.
Lemma through_inv (P : KdlSolver.solver -> event -> KdlSolver.solver -> Prop) (I : KdlSolver.solver -> Prop) (C : call -> Prop) s t s' :
  (forall s e s', I s -> C (fst e) -> P s e s' -> I s') -> I s -> Forall (fun e => C (fst e)) t -> through P s t s' ->
  I s' /\ Forall (fun e => exists a b, I a /\ P a e b) t.
Proof.
  intros ST I0 F H. induction H as [|s s1 s2 e tr He Ht IH]; [split; [exact I0|constructor]|].
  inversion F as [|? ? F1 F2]; subst. destruct (IH (ST _ _ _ I0 F1 He) F2) as (A & B). split; [exact A|]. constructor; [exists s, s1; auto|exact B].
Qed.

(** ** Calls that change the chain *)
Definition keeps (x : call) : Prop := match x with AppendLink _ | RestoreOriginalChain => False | _ => True end.
Lemma op_keeps c o s tr r s' : (forall x, o <> OTool x) -> exec (do_op c o) s tr r s' -> Forall (fun e => keeps (fst e)) tr.
Proof.
  intros NT E. assert (A : all keeps (fun _ _ => True) (do_op c o)).
  { destruct o; cbn [do_op]; try (now contradiction (NT x)).
    - apply all_bind; [apply all_stat; repeat split|intro; exact I].
    - apply all_bind; [apply all_inv; repeat split|intro; exact I].
    - apply all_movj; repeat split.
    - apply all_relj; repeat split.
    - apply all_movl; repeat split.
    - apply all_movv; repeat split.
    - apply all_gcmp; repeat split.
    - apply all_forc; repeat split.
    - apply all_stop; repeat split.
    - apply all_wait; repeat split.
    - unfold act. pall.
    - apply all_bind; [apply all_pose; repeat split|intro; exact I].
    - apply all_bind; [apply all_twist; repeat split|intro; exact I].
    - apply all_bind; [apply all_wrench; repeat split|intro; exact I].
    - apply all_set; repeat split.
    - apply all_bind; [unfold getParameter; pall|intro; exact I].
    - apply all_sets; repeat split.
    - apply all_bind; [unfold getParameters; pall|intro; exact I].
    - apply all_bind; [|intro; exact I]. unfold run, cycle_body, read_encoders. pall; try exact I; try (intros; exact I).
      all: first [apply all_stop; now repeat split | apply all_handleMovj; now repeat split | apply all_handleMovlVel; now repeat split
        | apply all_handleMovlPosd; now repeat split | apply all_handleMovv; now repeat split
        | apply all_handleGcmp; now repeat split | apply all_handleForc; now repeat split ]. }
  exact (proj2 (all_exec keeps (fun _ _ => True) _ (fun _ => I) (fun _ _ _ _ _ => I) A _ _ _ _ E)).
Qed.

(** ** The device *)
Local Notation solver := KdlSolver.solver.
Local Notation sv_chain := KdlSolver.sv_chain.
Local Notation sv_original := KdlSolver.sv_original.
Local Notation sv_ik := KdlSolver.sv_ik.
Definition alike (v s : solver) : Prop :=
  sv_chain s = sv_chain v /\ sv_original s = sv_original v /\ KdlSolver.ik_poe (sv_ik s) = KdlSolver.ik_poe (sv_ik v) /\
  KdlSolver.ik_steps (sv_ik s) = KdlSolver.ik_steps (sv_ik v) /\ KdlSolver.ik_rev (sv_ik s) = KdlSolver.ik_rev (sv_ik v).
Lemma alike_refl v : alike v v. Proof. repeat split. Qed.
Lemma answers_alike d v s e s' : alike v s -> keeps (fst e) -> answers d s e s' -> alike v s'.
Proof.
  destruct e as [x a]. intros A K H.
  assert (Q : forall P : Prop, (s' = s -> P) -> (P -> P) -> s' = s -> P) by auto.
  destruct x; cbn [keeps fst answers] in *; try contradiction; try (now subst); try (destruct H as (-> & _); exact A).
  destruct H as (r & H & _). apply SolverLoopFacts.inv_same in H. destruct H as (H1 & H2 & H3 & H4 & H5 & _). destruct A as (A1 & A2 & A3 & A4 & A5).
  repeat split; congruence.
Qed.
Lemma answers_current d s e s' : SolverLoopFacts.current s -> answers d s e s' -> SolverLoopFacts.current s'.
Proof.
  destruct e as [x a]. intros C H. destruct x; cbn [answers] in H; try (now subst); try (destruct H as (-> & _); exact C).
  - destruct H as (r & H & _). apply (SolverLoopFacts.step_current (dev_fuel d) (dev_find d) s (SolverLoopSpec.Ask x q (frame_named frame))); [exact C|].
    cbn. rewrite H. reflexivity.
  - destruct H as (_ & draws & H). exact (SolverLoopFacts.step_current (dev_fuel d) (dev_find d) s (SolverLoopSpec.Tool KdlSolver.Restore draws) s' C H).
  - destruct H as (_ & draws & H). exact (SolverLoopFacts.step_current (dev_fuel d) (dev_find d) s (SolverLoopSpec.Tool (KdlSolver.Append x) draws) s' C H).
Qed.
Lemma served_current d s t s' : SolverLoopFacts.current s -> served d s t s' -> SolverLoopFacts.current s'.
Proof. intros C H. induction H; [exact C|]. apply IHthrough. eapply answers_current; eauto. Qed.
Lemma opened_current d ch t s : Screw.chain_ok ch -> opened d ch t s -> SolverLoopFacts.current s.
Proof. intros C (draws & sel & s0 & O & H). eapply served_current; [|exact H]. eapply SolverLoopFacts.open_current; eauto. Qed.

(** *** Tools *)
Lemma keeps_served d v t v' : Forall (fun e => keeps (fst e)) t -> served d v t v' -> alike v v'.
Proof. intros F H. apply (through_inv (answers d) (alike v) keeps v t v'); auto using alike_refl. intros; eapply answers_alike; eauto. Qed.
Lemma tool_trace x s tr b s' : exec (tool x) s tr (Done b) s' ->
  (exists a, tr = [(RestoreOriginalChain, a)] /\ ok a = false) \/ (exists a a', tr = [(RestoreOriginalChain, a); (AppendLink x, a')]).
Proof.
  unfold tool. intros E. cbn in E. destruct E as (a & t & -> & E). destruct (ok a) eqn:O; cbn in E.
  - destruct E as (a' & t' & -> & E). right. destruct (ok a'); cbn in E; destruct E as (-> & _); eauto.
  - destruct E as (-> & _). left. eauto.
Qed.
Definition bare (v : solver) (ch : chain) (t : frame) : Prop :=
  sv_original v = ch /\ nr_of_joints (sv_chain v) = nr_of_joints ch /\
  forall q f, length q = nr_of_joints ch -> chain_fwd_kin ch q = Some f -> chain_fwd_kin (sv_chain v) q = Some (fmul f t).
Lemma pose_of_six x : length x = 6%nat -> pose_at x 0 = KinRep.vectorToFrame x.
Proof. intros H. do 7 (destruct x as [|? x]; try discriminate). reflexivity. Qed.
Lemma tool_bare d v a a' x v' ch t : length x = 6%nat -> bare v ch t -> served d v [(RestoreOriginalChain, a); (AppendLink x, a')] v' -> bare v' ch (pose_at x 0).
Proof.
  intros L (O & _) H. inversion H as [|? v1 ? ? ? H1 H2]; subst. inversion H2 as [|? v2 ? ? ? H3 H4]; subst.
  inversion H4; subst. clear H H2 H4. cbn [answers] in H1, H3. destruct H1 as (_ & dr & H1). destruct H3 as (_ & dr' & H3).
  unfold KdlSolver.restoreOriginalChain in H1. destruct (KdlSolver.st_update _ _ _ _) as [k| |] eqn:U1; try discriminate. injection H1 as <-.
  unfold KdlSolver.appendLink in H3. cbn [KdlSolver.sv_chain KdlSolver.sv_original KdlSolver.sv_ik] in H3. destruct (KdlSolver.st_update _ _ _ k) as [k'| |] eqn:U2; try discriminate. injection H3 as <-.
  split; [reflexivity|]. cbn [KdlSolver.sv_chain KdlSolver.sv_original KdlSolver.sv_ik]. split; [exact (KdlSolverFacts.tools_joints (sv_original v) [x])|]. intros q f LQ F.
  pose proof (KdlSolverFacts.tools_fwd (sv_original v) [x] q f LQ F) as T. rewrite pose_of_six by exact L.
  unfold KdlSolverFacts.tools in T. cbn [map fold_left] in T. rewrite fmul_id_l in T. exact T.
Qed.
Lemma restore_served d v a v' : served d v [(RestoreOriginalChain, a)] v' -> ok a = true.
Proof. intros H. inversion H as [|? v1 ? ? ? O _]; subst. exact (proj1 O). Qed.
Lemma alike_bare v v' ch t : alike v v' -> bare v ch t -> bare v' ch t.
Proof. intros (A1 & A2 & _) (B1 & B2 & B3). unfold bare. rewrite A1, A2. auto. Qed.
Lemma history_bare d c h ch : forall t s s' v v', bare v ch t -> six_tools h -> history c s h s' -> served d v (trace_of h) v' -> bare v' ch (tool_in_use t h).
Proof.
  induction h as [|e h IH]; intros t s s' v v' B F H SV.
  - cbn in *. inversion SV; subst. exact B.
  - inversion H as [|? sm ? o tr b ? E H']; subst. inversion F as [|? ? F1 F2]; subst. cbn [fst] in F1.
    unfold trace_of in SV. cbn [map concat fst snd] in SV. apply through_app in SV. destruct SV as (vm & S1 & S2).
    assert (G : (exists x, o = OTool x) \/ forall x, o <> OTool x) by (destruct o; eauto; right; discriminate).
    destruct G as [(x & ->)|G].
    + cbn [tool_in_use]. cbn [do_op] in E. eapply IH; [|exact F2|exact H'|exact S2]. apply tool_trace in E. destruct E as [(a & -> & N)|(a & a' & ->)].
      * apply restore_served in S1. congruence.
      * eapply tool_bare; eauto.
    + assert (T : tool_in_use t ((o, tr, b) :: h) = tool_in_use t h) by (destruct o; try reflexivity; now contradiction (G x)). rewrite T.
      eapply IH; [|exact F2|exact H'|exact S2]. eapply alike_bare; [|exact B]. eapply keeps_served; [|exact S1]. eapply op_keeps; eauto.
Qed.
Lemma open_bare d ch v : opened d ch [] v -> bare v ch fid.
Proof.
  intros (draws & sel & s0 & O & H). inversion H; subst. unfold KdlSolver.sv_open in O. destruct (KdlSolver.st_create _ _ _ _) as [[k|]| |] eqn:C; try discriminate.
  injection O as <-. split; [reflexivity|]. split; [reflexivity|]. intros q f _ F. cbn [KdlSolver.sv_chain]. rewrite F, fmul_id_r. reflexivity.
Qed.
Lemma fill_read n tr a : In (GetEncoders, a) tr -> ok a = true -> joints_read n tr (fill 0 n (vals a)).
Proof.
  intros H O. exists a. split; [exact H|]. split; [exact O|]. unfold fill. split; [now rewrite map_length, seq_length|].
  intros i L. rewrite (nth_indep _ 0 (nth 0 (vals a) 0)) by (rewrite map_length, seq_length; exact L). rewrite map_nth with (d := 0%nat), seq_nth by exact L. reflexivity.
Qed.
Lemma fk_rigid_chain ch q : Screw.chain_ok ch -> length q = nr_of_joints ch -> exists f, chain_fwd_kin ch q = Some f /\ rigid f.
Proof.
  intros C L. destruct (ScrewFacts.fk_fromChain ch q C L) as (N & f & F1 & F2).
  destruct (proj1 (ScrewFacts.fk_rigid _ q (Screw.pr_fromChain _ C))) as (f' & F3 & R); [rewrite L; now symmetry|]. exists f. split; [exact F1|]. congruence.
Qed.
Lemma fk_rigid_links ch : rigid_links ch -> forall q, length q = nr_of_joints ch -> exists f, chain_fwd_kin ch q = Some f /\ rigid f.
Proof.
  intros C. unfold chain_fwd_kin. assert (G : forall h q, rigid h -> length q = nr_of_joints ch -> exists f, chain_fk h ch q = Some f /\ rigid f); [|intros; apply G; auto using rigid_id].
  induction ch as [|g ch IH]; intros h q RH L; cbn [chain_fk nr_of_joints] in *.
  - destruct q; [|discriminate]. eauto.
  - inversion C as [|? ? C1 C2]; subst. unfold nr_of_joints in L. cbn [filter] in L. destruct (is_fixed (s_joint g)); cbn [negb] in L.
    + apply IH; auto. apply rigid_mul; auto.
    + destruct q as [|x q]; [discriminate|]. cbn in L. apply IH; auto. apply rigid_mul; auto.
Qed.
Lemma ok_rigid_links ch : Screw.chain_ok ch -> rigid_links ch.
Proof. intros C. eapply Forall_impl; [|exact C]. intros g G x. apply rigid_mul; [apply ScrewFacts.joint_pose_rigid; exact G|apply G]. Qed.
Lemma stat_vector d ch v0 c s h s1 v1 tr x state time s2 v2 : rigid_links ch -> opened d ch [] v0 -> numJoints c = nr_of_joints ch ->
  six_tools h -> history c s h s1 -> served d v0 (trace_of h) v1 ->
  exec (stat c true) s1 tr (Done (Some (x, state, time))) s2 -> served d v1 tr v2 ->
  exists a f, In (GetEncoders, a) tr /\ ok a = true /\ stands_bare v0 (fill 0 (numJoints c) (vals a)) f /\ rigid f /\ x = KinRep.frameToVector (fmul f (tool_in_use fid h)).
Proof.
  intros C O N F H SV E S2. pose proof (open_bare _ _ _ O) as B0. pose proof (history_bare _ _ _ _ _ _ _ _ _ B0 F H SV) as (_ & B2 & B3).
  unfold stat in E. cbn in E. destruct E as (a & t & -> & E). destruct (ok a) eqn:OA; cbn in E; [|destruct E as (_ & X & _); discriminate].
  destruct E as (b & t2 & -> & E). destruct E as (fk & t3 & -> & E).
  inversion S2 as [|? va ? ? ? Ha S3]; subst. cbn in Ha. subst va. inversion S3 as [|? vb ? ? ? Hb S4]; subst.
  assert (vb = v1) as -> by (destruct (preciselyTimed c); cbn in Hb; exact Hb). inversion S4 as [|? vc ? ? ? Hc S5]; subst. cbn in Hc. destruct Hc as (-> & y & FK & OK & V).
  rewrite OK in E. cbn in E. destruct E as (-> & X & ->). injection X as -> _ _. subst y.
  set (q := fill 0 (numJoints c) (vals a)) in *.
  assert (L : length q = nr_of_joints ch) by (unfold q, fill; rewrite map_length, seq_length; exact N).
  destruct (fk_rigid_links ch C (map KinRep.degToRad q) ltac:(rewrite map_length; exact L)) as (f & Ff & R).
  exists a, f. split; [left; reflexivity|]. split; [exact OA|]. destruct B0 as (B0 & _). split; [unfold stands_bare; rewrite B0; exact Ff|]. split; [exact R|].
  unfold KdlSolver.fwdKin, KdlSolver.joints_in in FK. rewrite B2, <- L, Nat.leb_refl, firstn_all in FK. rewrite (B3 _ f) in FK; [|rewrite map_length; exact L|exact Ff].
  cbn [option_map] in FK. injection FK as FK. symmetry. exact FK.
Qed.
Lemma tool_rigid h : forall t, rigid t -> rigid (tool_in_use t h).
Proof. induction h as [|[[o t0] b] h IH]; cbn [tool_in_use]; intros t R; [exact R|]. destruct o; auto. apply IH. apply BccLineFacts2.pose_rigid. Qed.
Theorem stat_told d ch v0 c s h s1 v1 tr x state time s2 v2 : rigid_links ch -> opened d ch [] v0 -> numJoints c = nr_of_joints ch ->
  six_tools h -> history c s h s1 -> served d v0 (trace_of h) v1 ->
  exec (stat c true) s1 tr (Done (Some (x, state, time))) s2 -> served d v1 tr v2 ->
  exists q f, joints_read (numJoints c) tr q /\ stands_bare v0 q f /\ length x = 6%nat /\
    let g := fmul f (tool_in_use fid h) in fp (pose_at x 0) = fp g /\ (regular_log (fM g) -> pose_at x 0 = g).
Proof.
  intros C O N F H SV E S2. destruct (stat_vector _ _ _ _ _ _ _ _ _ _ _ _ _ _ C O N F H SV E S2) as (a & f & IA & OA & ST & R & ->).
  exists (fill 0 (numJoints c) (vals a)), f. split; [apply fill_read; auto|]. split; [exact ST|]. split; [reflexivity|].
  pose proof (rigid_mul _ _ R (tool_rigid h fid rigid_id)) as RG.
  cbv zeta. split; [unfold pose_at, KinRep.frameToVector; cbn; destruct (fp _); reflexivity|]. intros RL. apply BccLineFacts2.pose_written; auto.
Qed.
Theorem stat_same d ch v0 c s h s1 v1 tr x state time s2 v2 h' s1' v1' tr' x' state' time' s2' v2' : rigid_links ch -> opened d ch [] v0 -> numJoints c = nr_of_joints ch ->
  six_tools h -> history c s h s1 -> served d v0 (trace_of h) v1 -> exec (stat c true) s1 tr (Done (Some (x, state, time))) s2 -> served d v1 tr v2 ->
  six_tools h' -> history c s h' s1' -> served d v0 (trace_of h') v1' -> exec (stat c true) s1' tr' (Done (Some (x', state', time'))) s2' -> served d v1' tr' v2' ->
  tool_in_use fid h = tool_in_use fid h' -> (forall a a', In (GetEncoders, a) tr -> In (GetEncoders, a') tr' -> vals a = vals a') -> x = x'.
Proof.
  intros C O N F H SV E S2 F' H' SV' E' S2' T EN. destruct (stat_vector _ _ _ _ _ _ _ _ _ _ _ _ _ _ C O N F H SV E S2) as (a & f & IA & OA & ST & R & ->).
  destruct (stat_vector _ _ _ _ _ _ _ _ _ _ _ _ _ _ C O N F' H' SV' E' S2') as (a' & f' & IA' & OA' & ST' & R' & ->).
  rewrite (EN _ _ IA IA') in ST. unfold stands_bare in *. rewrite ST in ST'. injection ST' as <-. now rewrite T.
Qed.
