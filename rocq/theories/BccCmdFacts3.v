(** Proofs about the single commands: relative movements, rejected and accepted commands, joint limits. *)
From Coq Require Import Reals ZArith List Bool Lra Lia.
From Verif Require Import Kdl KdlFacts KdlRot KdlRotFacts KinRepSpec Vocab Bcc BccSpec BccLineSpec BccCmdSpec
  BccFacts BccAll BccFacts2 BccFacts3 BccFacts4 BccFacts6 BccFacts7 BccLineFacts BccLineFacts2 BccCmdFacts BccCmdFacts2.
Import ListNotations.
Open Scope R_scope.
Local Notation S := Datatypes.S.
Local Notation length := List.length.

(** ** Relative movements *)
Lemma add_sums xd : forall x y, add_to x xd = Some y -> sums x xd y.
Proof.
  induction xd as [|d xd IH]; intros x y H.
  - assert (y = x) as -> by (destruct x; injection H as <-; reflexivity). split; [cbn; lia|]. split; [reflexivity|]. intros j _. destruct j; cbn; ring.
  - destruct x as [|a x]; [discriminate|]. cbn in H. destruct (add_to x xd) as [r|] eqn:E; [|discriminate]. injection H as <-.
    destruct (IH _ _ E) as (L1 & L2 & N). split; [cbn; lia|]. split; [cbn; lia|]. intros [|j] Hj; cbn in *; [reflexivity|]. apply N. lia.
Qed.

(** a joint move to the poses in [y] *)
Lemma movj_moves_to c y s tr s' reaches : exec (movj c y) s tr (Done true) s' -> Forall (solves_in (numJoints c) reaches) tr -> moves_to c reaches y s tr s'.
Proof.
  intros E SV. apply movj_runs in E. inversion E as [| | |aq ai H1 H2 H3| |aq ai ag w av T tr' o s1 E1 E2 E3 E4 E5 E6]; subst.
  - inversion SV as [|? ? _ SV1]; subst. inversion SV1 as [|? ? SV2 _]; subst. destruct (SV2 H2) as (LN & RE).
    exists (fill 0 (numJoints c) (vals aq)), (vals ai). split; [apply filled; cbn; auto|]. split; [exact LN|]. split; [exact RE|]. right. split; [reflexivity|]. split; [reflexivity|].
    now rewrite must_move_fill.
  - inversion E6 as [| | |? ? tm ap ? Hv M L X1 X2 X3 Hp]; subst. cbn [app] in SV. inversion SV as [|? ? _ SV1]; subst. inversion SV1 as [|? ? SV2 _]; subst. destruct (SV2 E2) as (LN & RE).
    rewrite (firstn_all2 (vals ai)) in * by lia.
    exists (fill 0 (numJoints c) (vals aq)), (vals ai). split; [apply filled; cbn; auto|]. split; [exact LN|]. split; [exact RE|]. left. split.
    + rewrite !motions_app. rewrite (modes_quiet _ _ _ _ _ _ M). reflexivity.
    + split; [exists ap; split; [rewrite !in_app_iff; cbn; auto|auto]|]. rewrite Hp. reflexivity.
Qed.
Lemma moves_to_more c reaches y s t tr s' : motions t = [] -> moves_to c reaches y s tr s' -> moves_to c reaches y s (t ++ tr) s'.
Proof.
  intros Q (g & q' & (a & A1 & A2 & A3) & B & D & G). exists g, q'. split; [exists a; split; [rewrite in_app_iff; auto|auto]|]. split; [exact B|]. split; [exact D|].
  rewrite motions_app, Q. destruct G as [(G1 & (b & B1 & B2) & G2)|(G1 & G2 & G3)]; [left|right]; cbn; auto.
  split; [exact G1|]. split; [exists b; split; [rewrite in_app_iff; auto|auto]|exact G2].
Qed.

Theorem relj_tcp c xd s tr o s' : referenceFrame s = TCP_FRAME -> (exec (relj c xd) s tr o s' <-> exec (movj c xd) s tr o s').
Proof. intros F. unfold relj. cbn [bind look exec]. rewrite F. reflexivity. Qed.
Theorem relj_tool c xd s tr s' reaches : referenceFrame s = TCP_FRAME -> exec (relj c xd) s tr (Done true) s' ->
  Forall (solves_in (numJoints c) reaches) tr -> moves_to c reaches xd s tr s'.
Proof. intros F E. apply (relj_tcp _ _ _ _ _ _ F) in E. now apply movj_moves_to. Qed.
Theorem relj_base c xd s tr s' reaches k place : referenceFrame s <> TCP_FRAME -> exec (relj c xd) s tr (Done true) s' ->
  Forall (solves_in (numJoints c) reaches) tr -> Forall (tells_poses k place) tr ->
  exists q x y, joints_read (numJoints c) tr q /\ length x = (6 * k)%nat /\ poses x = place q /\ sums x xd y /\ moves_to c reaches y s tr s'.
Proof.
  intros F E SV TP. unfold relj in E. cbn [bind look exec] in E. destruct (Z.eqb_spec (referenceFrame s) TCP_FRAME) as [X|_]; [contradiction|].
  apply exec_bind in E. destruct E as [(r & t1 & t2 & s1 & -> & E1 & E2)|(e & X & _)]; [|discriminate].
  apply Forall_app in SV. destruct SV as (_ & SV). apply Forall_app in TP. destruct TP as (TP & _).
  unfold stat in E1. cbn [bind ask look exec] in E1. destruct E1 as (a & tr1 & -> & E1). destruct (ok a) eqn:Oa; cbn [negb] in E1.
  2:{ cbn in E1. destruct E1 as (-> & [= ->] & ->). cbn in E2. destruct E2 as (_ & X & _). discriminate. }
  cbn [bind ask look exec] in E1. destruct E1 as (x & tr2 & -> & E1). destruct (ok x) eqn:Ox; cbn [negb] in E1.
  2:{ cbn in E1. destruct E1 as (-> & [= ->] & ->). cbn in E2. destruct E2 as (_ & X & _). discriminate. }
  cbn in E1. destruct E1 as (-> & [= ->] & ->). destruct (add_to (vals x) xd) as [y|] eqn:AD; [|cbn in E2; destruct E2 as (_ & X & _); discriminate].
  cbn [need bind] in E2. inversion TP as [|? ? _ TP1]; subst. inversion TP1 as [|? ? TP2 _]; subst. destruct (TP2 Ox) as (LX & PX).
  exists (fill 0 (numJoints c) (vals a)), (vals x), y. split; [apply filled; cbn; auto|]. split; [exact LX|]. split; [exact PX|]. split; [now apply add_sums|].
  apply moves_to_more; [reflexivity|]. eapply movj_moves_to; eauto.
Qed.

Lemma tame_rot u t : unit u -> tame t -> rot_of (vscale t u) = Rot2 u t.
Proof.
  intros U [-> |T].
  - replace (vscale 0 u) with vzero by (unfold vscale, vzero; f_equal; ring). now rewrite rot_of_zero, Rot2_zero.
  - destruct (Rle_dec 0 t) as [P|P].
    + rewrite Rabs_pos_eq in T by exact P. now apply rot_of_scaled.
    + rewrite Rabs_left in T by lra. replace (vscale t u) with (vscale (- t) (vneg u)) by (unfold vscale, vneg; cbn; f_equal; ring).
      rewrite rot_of_scaled; [|unfold unit, dot, vneg in *; cbn in *; lra|exact T]. rewrite Rot2_opp_axis. f_equal. ring.
Qed.
Theorem offset_composed x d y i : sums x d y -> (6 * (i + 1) <= length x)%nat -> aligned (rotation_at x i) (rotation_at d i) ->
  moved_by (pose_at d i) (pose_at x i) (pose_at y i).
Proof.
  intros (_ & _ & N) L A. unfold moved_by, pose_at. cbn [fp fM]. rewrite !N by lia. split; [reflexivity|].
  assert (E : V (nth (6 * i + 3) x 0 + nth (6 * i + 3) d 0) (nth (6 * i + 4) x 0 + nth (6 * i + 4) d 0) (nth (6 * i + 5) x 0 + nth (6 * i + 5) d 0) = vadd (rotation_at x i) (rotation_at d i)) by reflexivity.
  rewrite E. fold (rotation_at x i) (rotation_at d i). destruct A as [A|(u & s & t & U & -> & -> & T1 & T2 & T3)].
  - rewrite A, rot_of_zero. replace (vadd (rotation_at x i) vzero) with (rotation_at x i) by (unfold rotation_at, vadd, vzero; cbn; f_equal; ring).
    destruct (rot_of (rotation_at x i)); unfold mm, mid; cbn; f_equal; ring.
  - replace (vadd (vscale s u) (vscale t u)) with (vscale (s + t) u) by (unfold vadd, vscale; cbn; f_equal; ring).
    rewrite !tame_rot by auto. rewrite Rot2_plus by exact U. f_equal. ring.
Qed.

(** ** Rejected commands *)
Lemma movl_rejected c fuel xd s tr s' : exec (movl c fuel xd) s tr (Done false) s' -> (exists ts, s' = set_trajectories ts s) /\ motions tr = [].
Proof.
  intros E. set (G := fun (tr : list event) (o : outcome bool) s' => o = Done false -> exists ts, s' = set_trajectories ts s).
  assert (Q : motions tr = []).
  { assert (A : all (fun x => motion x = false) (fun _ _ => True) (movl c fuel xd)) by (apply all_movl; repeat split; auto).
    destruct (all_exec _ (fun _ _ => True) _ (fun _ => I) (fun _ _ _ _ _ => I) A _ _ _ _ E) as (_ & F).
    clear -F. induction F as [|[x a] t M F IH]; [reflexivity|]. unfold motions in *. cbn in *. rewrite M. exact IH. }
  split; [|exact Q]. assert (H : wp (movl c fuel xd) s [] G); [|exact (wp_sound _ _ _ _ _ _ H E eq_refl)]. clear E Q tr s'.
  assert (I0 : forall t o, G t o s) by (intros t o _; exists (trajectories s); destruct s; reflexivity).
  unfold movl. go. intros a. brk; go; [|apply I0]. intros x. brk; go; [|apply I0].
  assert (K : forall obj t, wp (match obj with
    | None => Ret false
    | Some xd_obj =>
      modify (set_trajectories []) ;;
      let* seconds := look duration in
      let* ts := need OutOfBounds (build (fun f t => Line f t seconds) (vals x) xd_obj (seq 0 (length xd / 6))) in
      modify (set_trajectories ts) ;;
      let* fine := (if enableFailFast c then doFailFastChecks c fuel (fill 0 (numJoints c) (vals a)) else Ret true) in
      if negb fine then Ret false else
      let* m := setControlModes c (if usePosdMovl c then VOCAB_CM_POSITION_DIRECT else VOCAB_CM_VELOCITY) in
      if negb m then Ret false else
      let* now := ask Now in
      modify (set_startTime (num now)) ;;
      modify (set_cmcSuccess true) ;;
      modify (setCurrentState VOCAB_CC_MOVL_CONTROLLING) ;;
      Ret true end) s t G).
  { intros [obj|] t; go; [|apply I0]. destruct build as [ts|]; go; [|discriminate].
    rewrite wp_bind. apply exec_wp. intros tr2 o2 s2 E.
    assert (s2 = set_trajectories ts (set_trajectories [] s)) as ->.
    { destruct enableFailFast; [now apply failfast_same in E|]. cbn in E. tauto. }
    destruct o2 as [[]|]; cbn [negb]; go; [|intros _; exists ts; reflexivity|discriminate].
    apply wp_modes. intros tm b _. destruct b; cbn [negb]; go; [discriminate|]. intros _. exists ts. reflexivity. }
  destruct (Z.eqb (referenceFrame s) TCP_FRAME); go; [intros r; destruct (ok r)|].
  - apply (K (Some (vals r))).
  - apply (K None).
  - apply (K (Some xd)).
Qed.
Lemma movv_rejected c xd s tr s' : exec (movv c xd) s tr (Done false) s' -> (exists ts, s' = set_trajectories ts s) /\ motions tr = [].
Proof.
  intros E. set (G := fun (tr : list event) (o : outcome bool) s' => o = Done false -> exists ts, s' = set_trajectories ts s).
  assert (Q : motions tr = []).
  { assert (A : all (fun x => motion x = false) (fun _ _ => True) (movv c xd)) by (apply all_movv; repeat split; auto).
    destruct (all_exec _ (fun _ _ => True) _ (fun _ => I) (fun _ _ _ _ _ => I) A _ _ _ _ E) as (_ & F).
    clear -F. induction F as [|[x a] t M F IH]; [reflexivity|]. unfold motions in *. cbn in *. rewrite M. exact IH. }
  split; [|exact Q]. assert (H : wp (movv c xd) s [] G); [|exact (wp_sound _ _ _ _ _ _ H E eq_refl)]. clear E Q tr s'.
  assert (I0 : forall t o, G t o s) by (intros t o _; exists (trajectories s); destruct s; reflexivity).
  unfold movv. go. intros a. brk; go; [|apply I0]. intros x. brk; go; [|apply I0]. destruct build as [ts|]; go; [|discriminate].
  apply wp_modes. intros tm b _. destruct b; cbn [negb]; go; [discriminate|]. intros _. exists ts. reflexivity.
Qed.
Lemma gcmp_rejected c s tr s' : exec (gcmp c) s tr (Done false) s' -> s' = s /\ motions tr = [].
Proof.
  intros E. apply exec_bind in E. destruct E as [(b & t1 & t2 & s1 & -> & E1 & E2)|(e & X & _)]; [|discriminate].
  apply set_modes in E1. pose proof (modes_quiet _ _ _ _ _ _ E1) as Q. destruct E1 as (-> & _ & b' & X & _). destruct b; cbn in E2.
  - destruct E2 as (_ & E2 & _). discriminate.
  - destruct E2 as (-> & _ & ->). rewrite motions_app, Q. auto.
Qed.
Lemma forc_rejected c f s tr s' : exec (forc c f) s tr (Done false) s' -> (s' = s \/ s' = set_fd (map Ropp f) s) /\ motions tr = [].
Proof.
  unfold forc. cbn [bind look exec]. destruct Z.eqb; cbn [exec]; [intros (-> & _ & ->); auto|].
  cbn [bind modify exec]. intros E. apply exec_bind in E. destruct E as [(b & t1 & t2 & s1 & -> & E1 & E2)|(e & X & _)]; [|discriminate].
  apply set_modes in E1. pose proof (modes_quiet _ _ _ _ _ _ E1) as Q. destruct E1 as (-> & _ & b' & X & _). destruct b; cbn in E2.
  - destruct E2 as (_ & E2 & _). discriminate.
  - destruct E2 as (-> & _ & ->). rewrite motions_app, Q. auto.
Qed.
Lemma movj_rejected c xd s tr s' : exec (movj c xd) s tr (Done false) s' -> (s' = s \/ exists v, s' = set_vmoStored v s) /\
  forall x a, In (x, a) tr -> motion x = true -> ok a = false.
Proof.
  intros E. apply movj_runs in E. inversion E as [aq H|aq ai H1 H2| | |aq ai ag H1 H2 H3 H4|aq ai ag w av T tr' o s1 E1 E2 E3 E4 E5 E6]; subst.
  - split; [auto|]. intros x a [[= <- <-]|[]]; discriminate.
  - split; [auto|]. intros x a [[= <- <-]|[[= <- <-]|[]]]; discriminate.
  - split; [right; eexists; reflexivity|]. intros x a [[= <- <-]|[[= <- <-]|[[= <- <-]|[]]]]; discriminate.
  - assert (Q : forall x a, In (x, a) tr' -> motion x = true -> ok a = false).
    { inversion E6 as [| ? ? tm ? Hv M| |? ? tm ap ? Hv M L X1 X2 X3 Hp]; subst.
      - contradiction.
      - intros x a I Mx. apply (modes_in _ _ _ _ _ _ M) in I. apply mode_call_quiet in I. cbn in I. congruence.
      - intros x a I Mx. rewrite in_app_iff in I. destruct I as [I|[[= <- <-]|[]]]; [|congruence].
        apply (modes_in _ _ _ _ _ _ M) in I. apply mode_call_quiet in I. cbn in I. congruence. }
    split.
    + inversion E6 as [| | |? ? tm ap ? Hv M L X1 X2 X3 Hp]; subst; try (right; eexists; reflexivity). rewrite Hp. right; eexists; reflexivity.
    + intros x a I Mx. cbn in I. destruct I as [[= <- <-]|[[= <- <-]|[[= <- <-]|[[= <- <-]|I]]]]; try discriminate. eauto.
Qed.
Lemma relj_rejected c xd s tr s' : exec (relj c xd) s tr (Done false) s' -> (s' = s \/ exists v, s' = set_vmoStored v s) /\
  forall x a, In (x, a) tr -> motion x = true -> ok a = false.
Proof.
  unfold relj. cbn [bind look exec]. destruct Z.eqb; [apply movj_rejected|]. intros E.
  apply exec_bind in E. destruct E as [(r & t1 & t2 & s1 & -> & E1 & E2)|(e & X & _)]; [|discriminate].
  assert (A : all (fun x => motion x = false) eq (stat c false)) by (apply all_stat; repeat split; auto).
  destruct (all_exec _ eq _ (fun _ => eq_refl) (fun _ _ _ H1 H2 => eq_trans H1 H2) A _ _ _ _ E1) as (<- & Q).
  assert (G : (s' = s \/ exists v, s' = set_vmoStored v s) /\ forall x a, In (x, a) t2 -> motion x = true -> ok a = false).
  { destruct r as [[[x v] t]|]; [|cbn in E2; destruct E2 as (-> & _ & ->); split; [auto|contradiction]].
    destruct (add_to x xd); cbn [need bind] in E2; [|cbn in E2; destruct E2 as (_ & X & _); discriminate]. now apply movj_rejected in E2. }
  destruct G as (G1 & G2). split; [exact G1|]. intros x a I Mx. rewrite in_app_iff in I. destruct I as [I|I]; [|eauto].
  rewrite (quiet_in _ _ _ Q I) in Mx. discriminate.
Qed.

Theorem rejected c o v s tr s' : begins o = Some v -> exec (do_op c o) s tr (Done false) s' ->
  (forall x a, In (x, a) tr -> motion x = true -> ok a = false) /\ currentState s' = currentState s /\ same_configuration s s' /\
  movementStartTime s' = movementStartTime s /\ cmcSuccess s' = cmcSuccess s /\
  ((forall fuel xd, o <> OMovl fuel xd) -> (forall xd, o <> OMovv xd) -> trajectories s' = trajectories s) /\
  ((forall f, o <> OForc f) -> fd s' = fd s).
Proof.
  assert (QM : forall tr, motions tr = [] -> forall x a, In (x, a) tr -> motion x = true -> ok a = false).
  { intros t Q x a I M. exfalso. assert (X : In x (motions t)) by (unfold motions; apply filter_In; split; [apply in_map_iff; exists (x, a); auto|exact M]). rewrite Q in X. exact X. }
  destruct o; cbn [begins do_op]; try discriminate; intros _ E.
  - apply movj_rejected in E. destruct E as ([-> |(w & ->)] & Q); split; try exact Q; repeat split.
  - apply relj_rejected in E. destruct E as ([-> |(w & ->)] & Q); split; try exact Q; repeat split.
  - apply movl_rejected in E. destruct E as ((ts & ->) & Q). split; [now apply QM|]. repeat split; try congruence. intros X _. exfalso. eapply X. reflexivity.
  - apply movv_rejected in E. destruct E as ((ts & ->) & Q). split; [now apply QM|]. repeat split; try congruence. intros _ X. exfalso. eapply X. reflexivity.
  - apply gcmp_rejected in E. destruct E as (-> & Q). split; [now apply QM|]. repeat split.
  - apply forc_rejected in E. destruct E as ([-> | ->] & Q); (split; [now apply QM|]); repeat split. intros X. exfalso. eapply X. reflexivity.
Qed.

(** ** Accepted commands *)
Theorem accepted c o v s tr s' : begins o = Some v -> exec (do_op c o) s tr (Done true) s' ->
  currentState s' = v \/ ((exists xd, o = OMovj xd \/ o = ORelj xd) /\ s' = s /\ motions tr = []).
Proof.
  assert (J : forall xd s tr s', exec (movj c xd) s tr (Done true) s' -> currentState s' = VOCAB_CC_MOVJ_CONTROLLING \/ (s' = s /\ motions tr = [])).
  { intros xd s0 t s1 E. apply movj_outcome in E. destruct E as (aq & ai & _ & _ & _ & _ & [(_ & a & _ & _ & X)|(_ & X & Y)]); auto. }
  destruct o; cbn [begins do_op]; try discriminate; intros [= <-] E.
  - apply J in E. destruct E as [E|(E1 & E2)]; [auto|]. right. eauto.
  - unfold relj in E. cbn [bind look exec] in E. destruct Z.eqb; [apply J in E; destruct E as [E|(E1 & E2)]; [auto|]; right; eauto|].
    apply exec_bind in E. destruct E as [(r & t1 & t2 & s1 & -> & E1 & E2)|(e & X & _)]; [|discriminate].
    assert (A : all (fun x => motion x = false) eq (stat c false)) by (apply all_stat; repeat split; auto).
    destruct (all_exec _ eq _ (fun _ => eq_refl) (fun _ _ _ H1 H2 => eq_trans H1 H2) A _ _ _ _ E1) as (<- & Q).
    destruct r as [[[x v] t]|]; [|cbn in E2; destruct E2 as (_ & X & _); discriminate].
    destruct (add_to x xd); cbn [need bind] in E2; [|cbn in E2; destruct E2 as (_ & X & _); discriminate]. apply J in E2. destruct E2 as [E2|(E3 & E4)]; [auto|]. right.
    split; [eauto|]. split; [exact E3|]. rewrite motions_app, E4, app_nil_r. clear -Q. induction Q as [|[y a] t M F IH]; [reflexivity|]. unfold motions in *. cbn in *. rewrite M. exact IH.
  - left. apply movl_built in E. destruct (E eq_refl) as (from & target & ts & now & _ & _ & _ & _ & _ & X & _). exact X.
  - left. assert (H : wp (movv c xdotd) s [] (fun _ o s' => o = Done true -> currentState s' = VOCAB_CC_MOVV_CONTROLLING)); [|exact (wp_sound _ _ _ _ _ _ H E eq_refl)].
    unfold movv. go. intros a. brk; go; [|discriminate]. intros x. brk; go; [|discriminate]. destruct build as [ts|]; go; [|discriminate].
    apply wp_modes. intros tm b _. destruct b; cbn [negb]; go; [|discriminate]. reflexivity.
  - left. apply gcmp_started in E. subst s'. reflexivity.
  - left. apply forc_started in E. destruct E as (_ & ->). reflexivity.
Qed.
