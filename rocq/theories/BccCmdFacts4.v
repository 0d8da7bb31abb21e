(** Proofs about the single commands: joint positions sent to the robot. *)
From Coq Require Import Reals ZArith List Bool Lra Lia.
From Verif Require Import Kdl KdlFacts KdlRot KdlRotFacts KinRepSpec Vocab Bcc BccSpec BccLineSpec BccCmdSpec
  BccFacts BccAll BccFacts2 BccFacts3 BccFacts4 BccFacts6 BccFacts7 BccLineFacts BccLineFacts2 BccCmdFacts BccCmdFacts2 BccCmdFacts3.
Import ListNotations.
Open Scope R_scope.
Local Notation S := Datatypes.S.
Local Notation length := List.length.

Definition no_position (x : call) : Prop := match x with PositionMove _ | SetPositions _ => False | _ => True end.
Lemma none_within {A} c (p : prog A) s tr o s' : all no_position (fun _ _ => True) p -> exec p s tr o s' -> within c tr.
Proof.
  intros H E. destruct (all_exec _ (fun _ _ => True) _ (fun _ => I) (fun _ _ _ _ _ => I) H _ _ _ _ E) as (_ & F). rewrite Forall_forall in F.
  intros x a q J [-> | ->]; specialize (F _ J); contradiction.
Qed.
Ltac np := pall; cbn [no_position]; auto; first [apply all_check; repeat split; now auto | apply all_sample; repeat split; now auto | apply all_stop; repeat split; now auto].
Lemma np_movj c : all no_position (fun _ _ => True) (handleMovj c).
Proof. unfold handleMovj. np. Qed.
Lemma np_velocity c q x y z f : all no_position (fun _ _ => True) (velocity_command c q x y z f).
Proof. unfold velocity_command. pall; cbn; auto. Qed.
Lemma np_vel c q : all no_position (fun _ _ => True) (handleMovlVel c q).
Proof. unfold handleMovlVel. pall; try match goal with |- all _ _ (velocity_command _ _ _ _ _ _) => apply np_velocity end; np. Qed.
Lemma np_movv c q : all no_position (fun _ _ => True) (handleMovv c q).
Proof. unfold handleMovv. pall; try match goal with |- all _ _ (velocity_command _ _ _ _ _ _) => apply np_velocity end; np. Qed.
Lemma np_gcmp c q : all no_position (fun _ _ => True) (handleGcmp c q).
Proof. unfold handleGcmp. np. Qed.
Lemma np_forc c q v w : all no_position (fun _ _ => True) (handleForc c q v w).
Proof. unfold handleForc. np. Qed.
Lemma np_twist c x : all no_position (fun _ _ => True) (twist c x).
Proof. unfold twist. np. Qed.
Lemma np_wrench c x : all no_position (fun _ _ => True) (wrench c x).
Proof. unfold wrench, read_encoders. np. Qed.
Lemma firstn_inside c l : inside c l -> inside c (firstn (numJoints c) l).
Proof. intros H j Hj. unfold inside_at. rewrite nth_firstn by exact Hj. now apply H. Qed.
Lemma within_app c t u : within c t -> within c u -> within c (t ++ u).
Proof. intros A B x a q I S1. rewrite in_app_iff in I. destruct I; [eapply A|eapply B]; eauto. Qed.

Lemma movj_within c xd s tr o s' : exec (movj c xd) s tr o s' -> Forall (solves_inside c) tr -> within c tr.
Proof.
  intros E SV x a q I S1. apply movj_runs in E. assert (MX : motion x = true) by (destruct S1 as [-> | ->]; reflexivity).
  inversion E as [aq H|aq ai H1 H2|aq ai H1 H2 H3|aq ai H1 H2 H3|aq ai ag H1 H2 H3 H4|aq ai ag w av T tr' o' s1 E1 E2 E3 E4 E5 E6]; subst; cbn in I;
    try (repeat (destruct I as [[= <- <-]|I]; [discriminate|]); contradiction).
  destruct I as [[= <- <-]|[[= <- <-]|[[= <- <-]|[[= <- <-]|I]]]]; try discriminate.
  inversion SV as [|? ? _ SV1]; subst. inversion SV1 as [|? ? SV2 _]; subst. specialize (SV2 E2).
  inversion E6 as [| ? ? tm ? Hv M|? ? tm ? Hv M|? ? tm ap ? Hv M L]; subst; try contradiction.
  - apply (modes_in _ _ _ _ _ _ M) in I. apply mode_call_quiet in I. cbn in I. congruence.
  - apply (modes_in _ _ _ _ _ _ M) in I. apply mode_call_quiet in I. cbn in I. congruence.
  - rewrite in_app_iff in I. destruct I as [I|[[= <- <-]|[]]].
    + apply (modes_in _ _ _ _ _ _ M) in I. apply mode_call_quiet in I. cbn in I. congruence.
    + destruct S1 as [[= <-]|S1]; [|discriminate]. now apply firstn_inside.
Qed.
Lemma pose_within c x s tr o s' : exec (pose c x) s tr o s' -> Forall (solves_inside c) tr -> within c tr.
Proof.
  set (G := fun (tr : list event) (o : outcome Datatypes.unit) (s' : st) => Forall (solves_inside c) tr -> within c tr).
  intros E. assert (H : wp (pose c x) s [] G); [|exact (wp_sound _ _ _ _ _ _ H E)]. clear E tr o s'.
  assert (N : forall t o s', quiet t -> G t o s').
  { intros t o s' Q _ y a q I S1. apply (quiet_in _ _ _ Q) in I. destruct S1 as [-> | ->]; discriminate. }
  unfold pose. go. destruct Z.eqb; cbn [negb]; go; [|apply N; qt]. destruct (negb _ && negb _); go; [apply N; qt|].
  apply wp_check. intros am b _. destruct b; cbn [negb]; go; [|apply N; qt].
  intros aq. brk; go; [|apply N; qt]. intros ai. brk; go; [|apply N; qt]. destruct first_n as [t|] eqn:FN; go; [|apply N; qt].
  apply first_n_some in FN. destruct FN as (L & ->). destruct minus; go; [|apply N; qt]. destruct checkJointLimitsDir as [[]|]; go; cbn [negb]; go; try (apply N; qt).
  intros ap SV. cbn [app] in *. intros y a q I S1. repeat (destruct I as [[= <- <-]|I]; [try (destruct S1; discriminate)|]); [|contradiction].
  destruct S1 as [S1|[= <-]]; [discriminate|]. inversion SV as [|? ? _ SV1]; subst. inversion SV1 as [|? ? _ SV2]; subst. inversion SV2 as [|? ? SV3 _]; subst.
  apply firstn_inside. now apply SV3.
Qed.
Lemma run_within c s tr o s' : exec (run c) s tr o s' -> Forall (solves_inside c) tr -> within c tr.
Proof.
  intros E SV. destruct (Z.eq_dec (currentState s) VOCAB_CC_MOVL_CONTROLLING) as [CS|CS]; [destruct (usePosdMovl c) eqn:P|].
  - apply posd_run in E; auto. destruct E as (_ & [Q|(aq & A1 & A2 & A3)]).
    + intros x a q I S1. apply (quiet_in _ _ _ Q) in I. destruct S1 as [-> | ->]; discriminate.
    + intros x a q I S1. destruct (A3 _ _ I ltac:(destruct S1 as [-> | ->]; reflexivity)) as (q' & -> & (an & ys & ai & _ & _ & _ & B1 & B2 & B3 & B4)).
      destruct S1 as [S1|[= <-]]; [discriminate|]. subst q'. apply firstn_inside. rewrite Forall_forall in SV. exact (SV _ B1 B2).
  - eapply none_within; [|exact E]. clear -P. unfold run, cycle_body, read_encoders. rewrite P. pall; cbn [no_position]; auto;
      first [apply np_movj | apply np_vel | apply np_movv | apply np_gcmp | apply np_forc | apply all_stop; repeat split; now auto].
  - unfold run in E. cbn [bind look exec] in E. destruct Z.eqb; [cbn in E; destruct E as (-> & _); intros ? ? ? []|].
    eapply none_within; [|exact E]. unfold cycle_body, read_encoders. destruct (Z.eqb_spec (currentState s) VOCAB_CC_MOVL_CONTROLLING) as [X|_]; [contradiction|]. pall; cbn [no_position]; auto;
      first [apply np_movj | apply np_vel | apply np_movv | apply np_gcmp | apply np_forc | apply all_stop; repeat split; now auto].
Qed.
Theorem positions_inside c o s tr b s' : exec (do_op c o) s tr b s' -> Forall (solves_inside c) tr -> within c tr.
Proof.
  intros E SV. destruct o; cbn [do_op] in E.
  all: try (eapply none_within; [|exact E]; first
    [ apply all_movl | apply all_movv | apply all_gcmp | apply all_forc | apply all_stop | apply all_wait | apply all_tool | apply all_set | apply all_sets
    | pall; first [apply all_stat | apply all_inv | apply np_twist | apply np_wrench] | unfold act, getParameter, getParameters; pall ]; repeat split; now auto).
  - eapply movj_within; eauto.
  - unfold relj in E. cbn [bind look exec] in E. destruct Z.eqb; [eapply movj_within; eauto|].
    apply exec_bind in E. destruct E as [(r & t1 & t2 & s1 & -> & E1 & E2)|(e & X & E1)].
    + apply Forall_app in SV. apply within_app; [eapply none_within; [|exact E1]; apply all_stat; repeat split; auto|].
      destruct r as [[[x v] t]|]; [|cbn in E2; destruct E2 as (-> & _); intros ? ? ? []].
      destruct (add_to x xd); cbn [need bind] in E2; [|cbn in E2; destruct E2 as (-> & _); intros ? ? ? []]. eapply movj_within; [exact E2|tauto].
    + eapply none_within; [|exact E1]. apply all_stat; repeat split; auto.
  - apply exec_bind in E. destruct E as [(r & t1 & t2 & s1 & -> & E1 & E2)|(e & X & E1)]; [|eapply pose_within; eauto].
    cbn in E2. destruct E2 as (-> & _). rewrite app_nil_r in *. eapply pose_within; eauto.
  - apply exec_bind in E. destruct E as [(r & t1 & t2 & s1 & -> & E1 & E2)|(e & X & E1)]; [|eapply run_within; eauto].
    cbn in E2. destruct E2 as (-> & _). rewrite app_nil_r in *. eapply run_within; eauto.
Qed.
