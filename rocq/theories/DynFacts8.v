(** The controller with the solver device and its dynamics. *)
From Coq Require Import Reals Lra Lia List Bool Arith ZArith String.
From Verif Require Import Kdl KdlFacts KdlRot Vocab Bcc BccSpec BccLineSpec BccCmdSpec BccFacts Sys SysSpec SysFacts Config ConfigSpec ConfigFacts TreeSpec Dyn AsibotSpec DynSpec.
From Verif Require KinRep KdlSolver KdlSolverFacts KinRepFacts3 Tree TreeFacts5 SysFacts2 SysFacts5 BccCmdFacts SolverLoopFacts.
From Verif Require Import DynFacts DynFacts2 DynFacts3 DynFacts4 DynFacts5 DynFacts6 DynFacts7.
Import ListNotations.
Open Scope R_scope.
Local Notation length := List.length.
Local Notation S := Datatypes.S.

(** the chain of the device: the one it was opened with, and tools *)
Definition dressed (ch : chain) (v : KdlSolver.solver) : Prop :=
  KdlSolver.sv_original v = ch /\ exists xs, KdlSolver.sv_chain v = ch ++ map KdlSolverFacts.tool_segment xs.
Lemma answers_dressed d ch s e s' : dressed ch s -> answers d s e s' -> dressed ch s'.
Proof.
  destruct e as [x a]. intros D H. destruct x; cbn [answers] in H; try (now subst); try (destruct H as (-> & _); exact D).
  - destruct H as (r & H & _). apply SolverLoopFacts.inv_same in H. destruct H as (H1 & H2 & _). unfold dressed in *. rewrite H1, H2. exact D.
  - destruct H as (_ & dr & H). unfold KdlSolver.restoreOriginalChain in H. destruct (KdlSolver.st_update _ _ _ _) as [k| |]; try discriminate. injection H as <-.
    destruct D as (D1 & _). split; [exact D1|]. exists []. cbn. rewrite app_nil_r. exact D1.
  - destruct H as (_ & dr & H). unfold KdlSolver.appendLink in H. destruct (KdlSolver.st_update _ _ _ _) as [k| |]; try discriminate. injection H as <-.
    destruct D as (D1 & xs & D2). split; [exact D1|]. exists (xs ++ [x]). cbn [KdlSolver.sv_chain]. rewrite D2, map_app, app_assoc. reflexivity.
Qed.
Lemma served_dressed d ch s t s' : dressed ch s -> served d s t s' -> dressed ch s' /\ Forall (fun e => exists a b, dressed ch a /\ answers d a e b) t.
Proof.
  intros D H. apply (through_inv (answers d) (dressed ch) (fun _ => True) s t s'); auto; [intros; eapply answers_dressed; eauto|]. apply Forall_forall. auto.
Qed.
Lemma open_dressed d ch v : opened d ch [] v -> dressed ch v.
Proof.
  intros (draws & sel & s0 & O & H). inversion H; subst. unfold KdlSolver.sv_open in O. destruct (KdlSolver.st_create _ _ _ _) as [[k|]| |]; try discriminate.
  injection O as <-. split; [reflexivity|]. exists []. cbn. rewrite app_nil_r. reflexivity.
Qed.
Lemma dressed_solid ch v : solid ch -> dressed ch v -> solid (KdlSolver.sv_chain v).
Proof.
  intros H (_ & xs & ->). apply Forall_app. split; [exact H|]. apply Forall_forall. intros s I. apply in_map_iff in I. destruct I as (x & <- & _).
  apply mk_sol; [reflexivity | apply KinRepFacts3.always_rigid | discriminate].
Qed.
Lemma dressed_joints ch v : dressed ch v -> nr_of_joints (KdlSolver.sv_chain v) = nr_of_joints ch.
Proof. intros (_ & xs & ->). apply KdlSolverFacts.tools_joints. Qed.

Lemma gravity_read gv g vel cc ms k : dyn_open vel cc ms gv = Some k -> gravity_at gv g -> k = dyn_solvers vel g (cfg_inertias cc ms).
Proof. intros H G. destruct G; cbn in H; injection H as <-; reflexivity. Qed.
Lemma deg_map : forall l, map (fun a => a * PI / 180) l = map KinRep.degToRad l.
Proof. intro l. apply map_ext. intro a. symmetry. apply deg_rad. Qed.

Lemma device_holds d ch cc vel g ms n H0 HN v q a v' : dev_kdl d = dyn_solvers vel g (cfg_inertias cc ms) -> dressed ch v ->
  ch_numLinks cc = Some (Z.of_nat n) -> Forall described (map (ch_link cc) (seq 0 n)) -> cfg_chain cc = Some ch ->
  matrix_at (ch_H0 cc) H0 -> matrix_at (ch_HN cc) HN -> rigid H0 -> rigid HN -> Forall weighed (map (fun i => (ch_link cc i, ms i)) (seq 0 n)) ->
  answers d v (InvDyn q, a) v' -> ok a = true -> length q = n ->
  length (vals a) = n /\ holds g H0 (map (fun i => (ch_link cc i, ms i)) (seq 0 n)) q (vals a).
Proof.
  intros DK D En DS CC M0 MN R0 RN W (_ & A) O Lq. pose proof D as DR. destruct D as (_ & xs & EC). rewrite DK in A.
  pose proof (file_energy cc ms n ch (map KdlSolverFacts.tool_segment xs) g H0 En DS CC M0 W) as (LB & NR & FE). cbv zeta in LB, FE.
  rewrite (cfg_bodies cc ms n En DS) in A. remember (no_body :: map body_of (map (fun i => (ch_link cc i, ms i)) (seq 0 n)) ++ [no_body]) as bs eqn:EB.
  pose proof (dressed_solid _ _ (cfg_solid _ _ _ _ CC M0 MN R0 RN) DR) as SO. pose proof (dressed_joints _ _ DR) as NJ.
  destruct (Tree.gravityDyn _ v q) as [ | |ts] eqn:G; cbn [told] in A; [contradiction | congruence|]. destruct A as (_ & ->).
  pose proof (gravity_holds vel g bs v q ts SO) as GH. cbv zeta in GH. rewrite NJ, NR in GH.
  destruct (GH) as (B & LT & GD); [rewrite EC, app_length; lia | exact G|]. split; [exact LT|]. split; [congruence|]. intros u Lu.
  exists (fun t => potential g bs (ch ++ map KdlSolverFacts.tool_segment xs) (moving (map (fun a => a * PI / 180) q) u t)). split.
  - intro t. apply FE. rewrite moving_length; rewrite map_length; congruence.
  - rewrite deg_map. rewrite firstn_all2 in GD by lia. rewrite EC in GD. apply GD. congruence.
Qed.

Theorem gcmp_holds d robot cc sc c s v vel gv g ms n H0 HN h s1 v1 tr s2 v2 h' s3 v3 :
  assembled d robot cc sc c s v -> dyn_open vel cc ms gv = Some (dev_kdl d) -> gravity_at gv g ->
  ch_numLinks cc = Some (Z.of_nat n) -> Forall rotary (map (ch_link cc) (seq 0 n)) ->
  matrix_at (ch_H0 cc) H0 -> matrix_at (ch_HN cc) HN -> rigid H0 -> rigid HN ->
  let links := map (fun i => (ch_link cc i, ms i)) (seq 0 n) in Forall weighed links ->
  history c s h s1 -> served d v (trace_of h) v1 -> exec (gcmp c) s1 tr (Done true) s2 -> served d v1 tr v2 ->
  history c s2 h' s3 -> Forall (fun e => lets_go_on (fst (fst e))) h' -> served d v2 (trace_of h') v3 ->
  forall o t b x a, In (o, t, b) h' -> In (x, a) t -> motion x = true ->
  exists q tau, o = OCycle /\ x = SetRefTorques tau /\ joints_read n t q /\ inside c q /\ holds g H0 links q tau.
Proof.
  intros A DO GA NL RO M0 MN R0 RN links W H SV E S1 H' L S2 o t b x a Io Ix Mx.
  destruct (SysFacts5.assembled_parts _ _ _ _ _ _ _ A) as (ch & CC & OP & _ & NJ & _).
  pose proof (gravity_read _ _ _ _ _ _ DO GA) as DK. pose proof (described_all _ RO) as DS. pose proof (proj1 (cfg_chain_spec cc n ch NL DS CC)) as NR.
  pose proof (proj1 (served_dressed _ _ _ _ _ (open_dressed _ _ _ OP) SV)) as D1. pose proof (proj1 (served_dressed _ _ _ _ _ D1 S1)) as D2.
  pose proof (proj2 (served_dressed _ _ _ _ _ D2 S2)) as AN.
  assert (NN : numJoints c = n) by congruence.
  destruct (BccCmdFacts.gcmp_balances c s1 tr s2 h' s3 (fun f q v w e tau => f = BASE_FRAME -> v = still n -> w = still n -> e = [] -> length q = n -> holds g H0 links q tau) E H' L) with (o := o) (t := t) (b := b) (x := x) (a := a) as (q & tau & Q1 & Q2 & Q3 & Q4 & Q5); auto.
  - eapply Forall_impl; [|exact AN]. intros [y r] (p & p' & DP & AP). destruct y; cbn [dynamics]; auto.
    + intros O. rewrite NN.
      assert (LQ : (n <= length q)%nat /\ length (vals r) = n).
      { destruct AP as (_ & AP). rewrite DK in AP. destruct (Tree.gravityDyn _ p q) as [ | |ts] eqn:G; cbn [told] in AP; [contradiction | congruence|]. destruct AP as (_ & ->).
        rewrite (cfg_bodies cc ms n NL DS) in G. destruct (file_energy cc ms n ch [] g H0 NL DS CC M0 W) as (LB & _). destruct (DP) as (_ & xs & EC).
        pose proof (dressed_joints _ _ DP) as NJ2. pose proof (dressed_solid _ _ (cfg_solid _ _ _ _ CC M0 MN R0 RN) DP) as SO.
        pose proof (fun LE => gravity_holds vel g _ p q ts SO LE G) as GH. destruct GH as (B & LT & _); [rewrite EC, app_length; lia|]. split; congruence || lia. }
      split; [apply LQ|]. intros _ _ _ _ Lq. eapply device_holds; eauto.
    + intros O. rewrite NN. destruct AP as (-> & AP). destruct (Tree.invDyn (dev_kdl d) p q qdot qdotdot f (frame_named frame)) as [ | |ts] eqn:G; cbn [told] in AP; [contradiction | congruence|]. destruct AP as (_ & EV).
      pose proof G as G'. rewrite DK, (cfg_bodies cc ms n NL DS) in G'. pose proof (dressed_joints _ _ DP) as NJ2.
      destruct (invdyn_drives vel g _ p _ _ _ _ _ _ (dressed_solid _ _ (cfg_solid _ _ _ _ CC M0 MN R0 RN) DP) G') as (LT & _). cbv zeta in LT.
      split; [congruence|]. intros -> -> -> -> Lq.
      assert (NE : KdlSolver.sv_chain p <> []).
      { intro N. unfold Tree.invDyn in G. rewrite N in G. unfold KdlSolver.joints_in in G. cbn in G. discriminate. }
      eapply device_holds with (v := p) (a := r); eauto. split; [reflexivity|].
      rewrite (TreeFacts5.chain_gravity _ p q KdlSolver.BASE_FRAME (or_introl eq_refl) NE) by (rewrite NJ2; lia). rewrite NJ2, NR.
      change (frame_named BASE_FRAME) with KdlSolver.BASE_FRAME in G. unfold still in G.
      change (told (Tree.invDyn (dev_kdl d) p q (repeat 0 n) (repeat 0 n) [] KdlSolver.BASE_FRAME) r). rewrite G. cbn [told]. auto.
  - rewrite NN in Q3, Q5. exists q, tau. repeat (split; [assumption|]). apply Q5; auto. destruct Q3 as (? & _ & _ & Q3 & _). exact Q3.
Qed.

Theorem forc_drives d ch v c s vel g bs h s1 v1 a1 a2 a3 a4 a5 a6 tr s2 v2 h' s3 v3 :
  solid ch -> opened d ch [] v -> numJoints c = nr_of_joints ch ->
  dev_kdl d = dyn_solvers vel g (map (fun b => mk_inertia (b_mass b) (b_cog b) (b_inertia b)) bs) ->
  history c s h s1 -> served d v (trace_of h) v1 -> exec (forc c [a1; a2; a3; a4; a5; a6]) s1 tr (Done true) s2 -> served d v1 tr v2 ->
  history c s2 h' s3 -> Forall (fun e => lets_go_on (fst (fst e)) /\ no_tool (fst (fst e))) h' -> served d v2 (trace_of h') v3 ->
  forall o t b x a, In (o, t, b) h' -> In (x, a) t -> motion x = true ->
  exists q sp ac tau, o = OCycle /\ x = SetRefTorques tau /\ length tau = numJoints c /\
    joints_read (numJoints c) t q /\ inside c q /\ speeds_read (numJoints c) t sp /\ accelerations_read (numJoints c) t ac /\
    forall js vs now, let rad := map (fun x => x * PI / 180) in passes js vs now (rad q) (rad sp) (rad ac) ->
    drives g bs (KdlSolver.sv_chain v1) js now (KdlRot.Wr (V (- a1) (- a2) (- a3)) (V (- a4) (- a5) (- a6))) tau.
Proof.
  intros SO OP NJ DK H SV E S1 H' L S2 o t b x a Io Ix Mx.
  pose proof (proj1 (served_dressed _ _ _ _ _ (open_dressed _ _ _ OP) SV)) as D1. pose proof (dressed_joints _ _ D1) as NJ1. pose proof (dressed_solid _ _ SO D1) as SO1.
  assert (K1 : Forall (fun e => keeps (fst e)) tr) by (apply (op_keeps c (OForc [a1; a2; a3; a4; a5; a6]) s1 tr (Done true) s2); [discriminate|exact E]).
  assert (K2 : Forall (fun e => keeps (fst e)) (trace_of h')) by (eapply SysFacts2.history_keeps; [exact H'|]; eapply Forall_impl; [|exact L]; intros ? X; apply X).
  pose proof (keeps_served _ _ _ _ K1 S1) as A12.
  destruct (through_inv (answers d) (alike v1) keeps v2 (trace_of h') v3) as (_ & AN); auto; [intros; eapply answers_alike; eauto|].
  set (n := numJoints c) in *. set (rad := map (fun x => x * PI / 180)).
  set (B := fun (f : Z) q sp ac e tau => length q = n -> length sp = n -> length ac = n -> length e = 6%nat -> f <> TCP_FRAME -> length (tau : list R) = n /\
    forall js vs now, passes js vs now (rad q) (rad sp) (rad ac) -> drives g bs (KdlSolver.sv_chain v1) js now (KinRep.vectorToWrench e) tau).
  destruct (BccCmdFacts.forc_balances c _ s1 tr s2 h' s3 B E H') as (NT & FB).
  - eapply Forall_impl; [|exact L]. intros ? X; apply X.
  - eapply Forall_impl; [|exact AN]. intros [y r] (p & p' & DP & AP). destruct DP as (EC & _). destruct y; cbn [dynamics]; auto; intros O; destruct AP as (_ & AP); rewrite DK in AP.
    + split; [|intros _ _ _ X; discriminate X]. unfold Tree.gravityDyn in AP. rewrite EC in AP. destruct (KdlSolver.joints_in (KdlSolver.sv_chain v1) q) as [qr|]; [|contradiction].
      cbn zeta in AP. cbn [dyn_solvers Tree.c_dyn] in AP.
      match type of AP with told (match ?r with _ => _ end) _ => destruct r as [ts|] eqn:RN end; [|cbn in AP; congruence]. destruct AP as (_ & ->).
      rewrite (rne_length _ _ _ _ _ _ _ _ SO1 RN), NJ1. symmetry. exact NJ.
    + destruct (Tree.invDyn _ p q qdot qdotdot f (frame_named frame)) as [ | |ts] eqn:G; cbn [told] in AP; [contradiction | congruence|]. destruct AP as (_ & ->).
      assert (SOp : solid (KdlSolver.sv_chain p)) by (rewrite EC; exact SO1).
      destruct (invdyn_drives vel g bs p _ _ _ _ _ _ SOp G) as (LT & f0 & F0 & DR). cbv zeta in LT, DR. rewrite EC in LT, DR. rewrite NJ1, <- NJ in *. fold n in LT, DR.
      split; [exact LT|]. intros Q1 Q2 Q3 Q4 NT. split; [exact LT|]. intros js vs now P.
      assert (FN : frame_named frame = KdlSolver.BASE_FRAME).
      { unfold frame_named in *. destruct (Z.eqb_spec frame BASE_FRAME); [reflexivity|]. destruct (Z.eqb_spec frame TCP_FRAME); [contradiction|].
        unfold Tree.invDyn in G. destruct (KdlSolver.joints_in _ q); [|discriminate]. destruct (KdlSolver.joints_in _ qdot); [|discriminate]. destruct (KdlSolver.joints_in _ qdotdot); discriminate. }
      rewrite FN in DR. cbn [base_axes] in DR. apply (DR js vs now). unfold rad in P. rewrite !deg_map in P. rewrite !firstn_all2 by lia. exact P.
  - destruct (FB _ _ _ _ _ Io Ix Mx) as (q & sp & ac & e & tau & Q1 & Q2 & Q3 & Q4 & Q5 & Q6 & (Q7 & Q8) & Q9).
    destruct Q9 as (LT & DR); try (destruct Q3 as (? & _ & _ & Q & _); exact Q); try (destruct Q5 as (? & _ & _ & Q & _); exact Q); try (destruct Q6 as (? & _ & _ & Q & _); exact Q); try exact NT; [rewrite Q7; reflexivity|].
    exists q, sp, ac, tau. do 7 (split; [assumption|]). intros js vs now rd P. specialize (DR js vs now P).
    do 7 (destruct e as [|? e]; try discriminate Q7). 
    pose proof (Q8 0%nat) as W0. pose proof (Q8 1%nat) as W1. pose proof (Q8 2%nat) as W2. pose proof (Q8 3%nat) as W3. pose proof (Q8 4%nat) as W4. pose proof (Q8 5%nat) as W5. cbn in W0, W1, W2, W3, W4, W5. subst. exact DR.
Qed.
