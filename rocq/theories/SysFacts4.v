(** Lemmas: joint positions sent by the controller are those found by the solver. *)
From Coq Require Import Reals ZArith List Bool Lra Lia String.
From Verif Require Import Kdl KdlFacts KdlRot KdlRotFacts KinRepSpec Vocab Bcc BccSpec BccLineSpec BccCmdSpec
  BccFacts BccAll BccFacts2 BccFacts3 BccFacts4 BccFacts6 BccFacts7 BccLineFacts BccLineFacts2 BccCmdFacts BccCmdFacts2 BccCmdFacts3 BccCmdFacts4.
Import ListNotations.
Open Scope R_scope.
Local Notation S := Datatypes.S.
Local Notation length := List.length.

Definition from_solver (n : nat) (tr : list event) : Prop := forall x a q, In (x, a) tr -> sends_positions x q ->
  exists y g f i, In (InvKin y g f, i) tr /\ ok i = true /\ (n <= length (vals i))%nat /\ q = firstn n (vals i).
Lemma none_from {A} n (p : prog A) s tr o s' : all no_position (fun _ _ => True) p -> exec p s tr o s' -> from_solver n tr.
Proof.
  intros H E. destruct (all_exec _ (fun _ _ => True) _ (fun _ => I) (fun _ _ _ _ _ => I) H _ _ _ _ E) as (_ & F). rewrite Forall_forall in F.
  intros x a q J [-> | ->]; specialize (F _ J); contradiction.
Qed.
Lemma from_app n t u : from_solver n t -> from_solver n u -> from_solver n (t ++ u).
Proof.
  intros A B x a q I S1. rewrite in_app_iff in I. destruct I as [I|I]; [destruct (A _ _ _ I S1) as (y & g & f & i & J & K)|destruct (B _ _ _ I S1) as (y & g & f & i & J & K)];
    exists y, g, f, i; (split; [rewrite in_app_iff; auto|exact K]).
Qed.
Lemma movj_from c xd s tr o s' : exec (movj c xd) s tr o s' -> from_solver (numJoints c) tr.
Proof.
  intros E x a q I S1. apply movj_runs in E. assert (MX : motion x = true) by (destruct S1 as [-> | ->]; reflexivity).
  inversion E as [aq H|aq ai H1 H2|aq ai H1 H2 H3|aq ai H1 H2 H3|aq ai ag H1 H2 H3 H4|aq ai ag w av T tr' o' s1 E1 E2 E3 E4 E5 E6]; subst; cbn in I;
    try (repeat (destruct I as [[= <- <-]|I]; [discriminate|]); contradiction).
  destruct I as [[= <- <-]|[[= <- <-]|[[= <- <-]|[[= <- <-]|I]]]]; try discriminate.
  inversion E6 as [| ? ? tm ? Hv M|? ? tm ? Hv M|? ? tm ap ? Hv M L]; subst; try contradiction.
  - apply (modes_in _ _ _ _ _ _ M) in I. apply mode_call_quiet in I. cbn in I. congruence.
  - apply (modes_in _ _ _ _ _ _ M) in I. apply mode_call_quiet in I. cbn in I. congruence.
  - rewrite in_app_iff in I. destruct I as [I|[[= <- <-]|[]]].
    + apply (modes_in _ _ _ _ _ _ M) in I. apply mode_call_quiet in I. cbn in I. congruence.
    + destruct S1 as [[= <-]|S1]; [|discriminate]. do 4 eexists. split; [right; left; reflexivity|]. auto.
Qed.
Lemma pose_from c x s tr o s' : exec (pose c x) s tr o s' -> from_solver (numJoints c) tr.
Proof.
  set (G := fun (tr : list event) (o : outcome Datatypes.unit) (s' : st) => from_solver (numJoints c) tr).
  intros E. assert (H : wp (pose c x) s [] G); [|exact (wp_sound _ _ _ _ _ _ H E)]. clear E tr o s'.
  assert (N : forall t o s', quiet t -> G t o s').
  { intros t o s' Q y a q I S1. apply (quiet_in _ _ _ Q) in I. destruct S1 as [-> | ->]; discriminate. }
  unfold pose. go. destruct Z.eqb; cbn [negb]; go; [|apply N; qt]. destruct (negb _ && negb _); go; [apply N; qt|].
  apply wp_check. intros am b _. destruct b; cbn [negb]; go; [|apply N; qt].
  intros aq. brk; go; [|apply N; qt]. intros ai. brk; go; [|apply N; qt]. destruct first_n as [t|] eqn:FN; go; [|apply N; qt].
  apply first_n_some in FN. destruct FN as (L & ->). destruct minus; go; [|apply N; qt]. destruct checkJointLimitsDir as [[]|]; go; cbn [negb]; go; try (apply N; qt).
  intros ap. cbn [app] in *. intros y a q I S1. repeat (destruct I as [[= <- <-]|I]; [try (destruct S1; discriminate)|]); [|contradiction].
  destruct S1 as [S1|[= <-]]; [discriminate|]. do 4 eexists. split; [right; right; left; reflexivity|]. auto.
Qed.
Lemma run_from c s tr o s' : exec (run c) s tr o s' -> from_solver (numJoints c) tr.
Proof.
  intros E. destruct (Z.eq_dec (currentState s) VOCAB_CC_MOVL_CONTROLLING) as [CS|CS]; [destruct (usePosdMovl c) eqn:P|].
  - apply posd_run in E; auto. destruct E as (_ & [Q|(aq & A1 & A2 & A3)]).
    + intros x a q I S1. apply (quiet_in _ _ _ Q) in I. destruct S1 as [-> | ->]; discriminate.
    + intros x a q I S1. destruct (A3 _ _ I ltac:(destruct S1 as [-> | ->]; reflexivity)) as (q' & -> & (an & ys & ai & _ & _ & _ & B1 & B2 & B3 & B4)).
      destruct S1 as [S1|[= <-]]; [discriminate|]. subst q'. do 4 eexists. split; [exact B1|]. auto.
  - eapply none_from; [|exact E]. clear -P. unfold run, cycle_body, read_encoders. rewrite P. pall; cbn [no_position]; auto;
      first [apply np_movj | apply np_vel | apply np_movv | apply np_gcmp | apply np_forc | apply all_stop; repeat split; now auto].
  - unfold run in E. cbn [bind look exec] in E. destruct Z.eqb; [cbn in E; destruct E as (-> & _); intros ? ? ? []|].
    eapply none_from; [|exact E]. unfold cycle_body, read_encoders. destruct (Z.eqb_spec (currentState s) VOCAB_CC_MOVL_CONTROLLING) as [X|_]; [contradiction|]. pall; cbn [no_position]; auto;
      first [apply np_movj | apply np_vel | apply np_movv | apply np_gcmp | apply np_forc | apply all_stop; repeat split; now auto].
Qed.
Theorem positions_from c o s tr b s' : exec (do_op c o) s tr b s' -> from_solver (numJoints c) tr.
Proof.
  intros E. destruct o; cbn [do_op] in E.
  all: try (eapply none_from; [|exact E]; first
    [ apply all_movl | apply all_movv | apply all_gcmp | apply all_forc | apply all_stop | apply all_wait | apply all_tool | apply all_set | apply all_sets
    | pall; first [apply all_stat | apply all_inv | apply np_twist | apply np_wrench] | unfold act, getParameter, getParameters; pall ]; repeat split; now auto).
  - eapply movj_from; eauto.
  - unfold relj in E. cbn [bind look exec] in E. destruct Z.eqb; [eapply movj_from; eauto|].
    apply exec_bind in E. destruct E as [(r & t1 & t2 & s1 & -> & E1 & E2)|(e & X & E1)].
    + apply from_app; [eapply none_from; [|exact E1]; apply all_stat; repeat split; auto|].
      destruct r as [[[x v] t]|]; [|cbn in E2; destruct E2 as (-> & _); intros ? ? ? []].
      destruct (add_to x xd); cbn [need bind] in E2; [|cbn in E2; destruct E2 as (-> & _); intros ? ? ? []]. eapply movj_from; exact E2.
    + eapply none_from; [|exact E1]. apply all_stat; repeat split; auto.
  - apply exec_bind in E. destruct E as [(r & t1 & t2 & s1 & -> & E1 & E2)|(e & X & E1)].
    + cbn in E2. destruct E2 as (-> & _). rewrite app_nil_r. eapply pose_from; exact E1.
    + eapply pose_from; exact E1.
  - apply exec_bind in E. destruct E as [(r & t1 & t2 & s1 & -> & E1 & E2)|(e & X & E1)].
    + cbn in E2. destruct E2 as (-> & _). rewrite app_nil_r. eapply run_from; exact E1.
    + eapply run_from; exact E1.
Qed.
Lemma history_from c h : forall s s', history c s h s' -> from_solver (numJoints c) (trace_of h).
Proof.
  induction h as [|[[o t] b] h IH]; intros s s' H; [intros ? ? ? []|]. inversion H as [|? sm ? ? ? ? ? E H']; subst.
  unfold trace_of. cbn [map concat fst snd]. apply from_app; [eapply positions_from; exact E|exact (IH _ _ H')].
Qed.
