From Coq Require Import Reals ZArith List Bool Lra Lia.
From Verif Require Import Kdl Vocab Bcc BccSpec BccFacts BccAll BccFacts2 BccFacts3 BccFacts4.
Import ListNotations.
Open Scope R_scope.
Local Notation S := Datatypes.S.

(** no operation but a cycle touches the count of reading errors *)
Definition same_errors (s s' : st) : Prop := encoderErrors s' = encoderErrors s.
Lemma errors_op c o s tr b s' : exec (do_op c o) s tr b s' -> o <> OCycle -> encoderErrors s' = encoderErrors s.
Proof.
  intros E N. assert (H : all (fun _ => True) same_errors (do_op c o)).
  { assert (T : forall x : call, (fun _ : call => True) x) by auto. unfold same_errors.
    destruct o; cbn [do_op]; unfold act, getParameter, getParameters; pall; try congruence; op_all; repeat split; auto. }
  destruct (all_exec _ _ _ (fun s => eq_refl) (fun a b d (X : same_errors a b) (Y : same_errors b d) => eq_trans Y X) H _ _ _ _ E) as (X & _).
  exact X.
Qed.
Lemma exec_then {A B} (p : prog A) (b : B) s tr o s' : exec (p ;; Ret b) s tr (Done o) s' <-> exists a, exec p s tr (Done a) s' /\ o = b.
Proof.
  rewrite exec_bind. split.
  - intros [(a & t1 & t2 & s1 & -> & E & F)|(e & F & _)]; [|discriminate]. cbn in F. destruct F as (-> & F & ->). injection F as ->.
    rewrite app_nil_r. eauto.
  - intros (a & E & ->). left. exists a, tr, [], s'. rewrite app_nil_r. cbn. auto.
Qed.
Lemma unread_unreadable t1 t2 : unread t1 -> unreadable (t1 ++ t2) = true.
Proof.
  intros (F & e & He & Oe). unfold unreadable. apply existsb_exists. exists e. split; [apply in_app_iff; now left|].
  rewrite Forall_forall in F. specialize (F e He). unfold encoder_event in F. now rewrite F, Oe.
Qed.
Lemma readable t1 t2 : (forall e, In e t1 -> ok (snd e) = true) -> Forall silent t2 -> unreadable (t1 ++ t2) = false.
Proof.
  intros O Si. destruct (unreadable (t1 ++ t2)) eqn:E; [|reflexivity]. apply existsb_exists in E. destruct E as (e & He & E).
  apply andb_true_iff in E. destruct E as (E1 & E2). apply in_app_iff in He. destruct He as [He|He].
  - rewrite (O e He) in E2. discriminate.
  - rewrite Forall_forall in Si. specialize (Si e He). unfold silent in Si. congruence.
Qed.
Lemma good_readable c tr : Forall (good_event c) tr -> unreadable tr = false.
Proof.
  intros G. destruct (unreadable tr) eqn:E; [|reflexivity]. apply existsb_exists in E. destruct E as ([x a] & He & E).
  rewrite Forall_forall in G. specialize (G _ He). cbn in E, G. destruct x; cbn in E; try discriminate; try (destruct G as (G & _)); rewrite G in E; discriminate.
Qed.
Lemma three_reads t1 t2 : length t1 = 3%nat -> Forall encoder_event t1 -> reads (t1 ++ t2) = true.
Proof. intros L F. destruct t1 as [|e t1]; [discriminate|]. inversion F; subst. cbn. unfold encoder_event in *. now rewrite H1. Qed.

Lemma cycle_errors c s tr s' : exec (run c) s tr (Done tt) s' ->
  encoderErrors s' = (if unreadable tr then encoderErrors s + 1 else if reads tr then 0 else encoderErrors s)%Z.
Proof.
  intros E. apply run_spec in E. destruct E as (_ & [(_ & -> & -> & _)|(_ & [(_ & U & _ & ->)|[(_ & _ & t1 & t2 & [(-> & U & _ & _ & ->)|(L & -> & EV & OK & Si & ->)])|[(_ & _ & (t3 & a & tr' & -> & L & EV & _ & X) & G)|(e & X & _)]]])]).
  - reflexivity.
  - rewrite <- (app_nil_r tr), (unread_unreadable _ _ U). reflexivity.
  - now rewrite (unread_unreadable _ _ U).
  - now rewrite (readable _ _ OK Si), (three_reads _ _ L EV).
  - rewrite (good_readable _ _ G), (three_reads _ _ L EV). destruct X as [(-> & _)|(_ & [(-> & _)|(-> & _)])]; reflexivity.
  - discriminate.
Qed.
Lemma history_errors c s h s' : history c s h s' -> encoderErrors s' = streak (encoderErrors s) h.
Proof.
  induction 1 as [|s s1 s2 o tr b h E _ IH]; [reflexivity|]. rewrite IH.
  assert (D : o = OCycle \/ o <> OCycle) by (destruct o; (now left) || (right; discriminate)). destruct D as [->|D].
  - cbn [streak]. cbn [do_op] in E. apply exec_then in E. destruct E as ([] & E & _). now rewrite (cycle_errors _ _ _ _ E).
  - rewrite (errors_op _ _ _ _ _ _ E D). destruct o; try reflexivity. congruence.
Qed.

(** ** A failing cycle *)
Lemma first_answer_skip is t3 x a t : (forall e, In e t3 -> is (fst e) = false) -> is x = true ->
  first_answer is (t3 ++ (x, a) :: t) = Some a.
Proof.
  unfold first_answer. induction t3 as [|e t3 IH]; intros H X; cbn.
  - now rewrite X.
  - rewrite (H e (or_introl eq_refl)). apply IH; [|exact X]. intros; apply H; now right.
Qed.
Lemma encoders_not_modes t3 : Forall encoder_event t3 -> forall e, In e t3 -> asks_modes (fst e) = false.
Proof. intros F [x a] H. rewrite Forall_forall in F. specialize (F _ H). unfold encoder_event in F. cbn in *. destruct x; discriminate || reflexivity. Qed.

Lemma failing_cycle c s tr s' : exec (run c) s tr (Done tt) s' -> currentState s <> VOCAB_CC_NOT_CONTROLLING ->
  cycle_failed c (encoderErrors s) s tr -> gave_up tr s'.
Proof.
  intros E NC F. apply run_spec in E. destruct E as (_ & [(X & _)|(_ & [(_ & U & L & _)|[(_ & (A1 & A2 & A3 & _ & A4) & _)|[(_ & _ & (t3 & a & tr' & -> & L & EV & A & X) & G)|(e & X & _)]]])]).
  - congruence.
  - exfalso. pose proof (unread_unreadable _ [] U) as W. rewrite app_nil_r in W. destruct U as (U & _). rewrite Forall_forall in U.
    unfold MAX_ENCODER_ERRORS in L. destruct F as [|b B1 B2|b B1|x b B1 B2|b B1|q xd f b B1]; try lia; try congruence.
    + unfold first_answer in B1. destruct find as [[y d]|] eqn:Fd; [|discriminate]. apply find_some in Fd. destruct Fd as (I1 & I2).
      specialize (U _ I1). unfold encoder_event in U. cbn in *. destruct y; discriminate.
    + specialize (U _ B1). unfold encoder_event in U. cbn in *. destruct x; discriminate.
    + specialize (U _ B1). discriminate.
    + specialize (U _ B1). discriminate.
  - split; [exact A1|]. auto.
  - exfalso. pose proof (good_readable _ _ G) as W. rewrite Forall_forall in G.
    destruct F as [|b B1 B2 B3|b B1|x b B1 B2 B3|b B1 B2|q xd f b B1 B2]; try congruence.
    + destruct (G _ B1) as (_ & K). contradiction.
    + rewrite (first_answer_skip asks_modes) in B1; [|now apply encoders_not_modes|reflexivity]. injection B1 as <-. contradiction.
    + specialize (G _ B1). cbn in G. destruct x; try discriminate; try (destruct G as (G & _)); congruence.
    + specialize (G _ B1). cbn in G. congruence.
    + destruct (G _ B1) as (_ & K). contradiction.
  - discriminate.
Qed.
Lemma idle_cycle c s tr o s' : currentState s = VOCAB_CC_NOT_CONTROLLING -> exec (run c) s tr o s' -> tr = [] /\ s' = s /\ o = Done tt.
Proof. intros H E. apply run_spec in E. destruct E as (_ & [(_ & -> & -> & ->)|(X & _)]); [auto|congruence]. Qed.
Lemma history_cons c s o tr b h s2 : history c s ((o, tr, b) :: h) s2 -> exists s1, exec (do_op c o) s tr (Done b) s1 /\ history c s1 h s2.
Proof. intros H. inversion H; subst. eauto. Qed.
Lemma idle_cycles c h : forall s s', currentState s = VOCAB_CC_NOT_CONTROLLING -> Forall (fun e => fst (fst e) = OCycle) h -> history c s h s' ->
  s' = s /\ Forall (fun e => snd (fst e) = []) h.
Proof.
  induction h as [|[[o tr] b] h IH]; intros s s' NC F H.
  - inversion H; subst. auto.
  - apply history_cons in H. destruct H as (s1 & E & H). apply Forall_cons_iff in F. destruct F as (Fo & F). cbn in Fo. subst o.
    cbn [do_op] in E. apply exec_then in E. destruct E as ([] & E & ->). apply (idle_cycle _ _ _ _ _ NC) in E. destruct E as (-> & -> & _).
    destruct (IH _ _ NC F H) as (-> & G). split; [reflexivity|]. constructor; auto.
Qed.
(** beyond the tolerance: exactly *)
Lemma tolerated_cycle c s tr s' : exec (run c) s tr (Done tt) s' -> currentState s <> VOCAB_CC_NOT_CONTROLLING ->
  unreadable tr = true -> (encoderErrors s < 20)%Z -> currentState s' = currentState s /\ motions tr = [] /\ cmcSuccess s' = cmcSuccess s.
Proof.
  intros E NC Un L. apply run_spec in E. destruct E as (_ & [(X & _)|(_ & [(_ & U & _ & ->)|[(_ & _ & t1 & t2 & [(-> & U & K & _)|(L3 & -> & EV & OK & Si & _)])|[(_ & _ & _ & G)|(e & X & _)]]])]).
  - congruence.
  - repeat split. destruct U as (U & _). clear - U. unfold motions. induction U as [|[x a] l H _ IH]; [reflexivity|]. cbn. rewrite IH.
    destruct x; cbn in *; reflexivity || discriminate.
  - unfold MAX_ENCODER_ERRORS in K. lia.
  - rewrite (readable _ _ OK Si) in Un. discriminate.
  - rewrite (good_readable _ _ G) in Un. discriminate.
  - discriminate.
Qed.

(** ** Velocity commands *)
Definition velocity_call (x : call) : bool := match x with VelocityMove _ => true | _ => false end.
Lemma all_calls {A} C (p : prog A) s tr o s' : all C (fun _ _ => True) p -> exec p s tr o s' -> Forall (fun e => C (fst e)) tr.
Proof. intros H E. exact (proj2 (all_exec _ _ _ (fun _ => I) (fun _ _ _ _ _ => I) H _ _ _ _ E)). Qed.
Lemma body_velocity c v : v <> VOCAB_CC_MOVL_CONTROLLING -> v <> VOCAB_CC_MOVV_CONTROLLING ->
  all (fun x => velocity_call x = false) (fun _ _ => True) (cycle_body c v).
Proof.
  intros H1 H2. unfold cycle_body, read_encoders. apply Z.eqb_neq in H1, H2. rewrite H1, H2. pall; auto.
  - apply all_handleMovj; repeat split; auto.
  - apply all_bind; [apply all_check; repeat split; auto|]. intros. pall; auto.
  - apply all_bind; [apply all_check; repeat split; auto|]. intros. pall; auto.
Qed.
Lemma run_reads c s tr o s' : exec (run c) s tr o s' -> tr <> [] -> exists e tr', tr = (GetEncoders, e) :: tr'.
Proof.
  unfold run. cbn [bind look exec]. destruct Z.eqb; cbn.
  - intros (-> & _). congruence.
  - intros (a & tr' & -> & _) _. eauto.
Qed.
Lemma cycle_velocity c s tr o s' v a : exec (run c) s tr o s' -> In (VelocityMove v, a) tr ->
  slow c v /\ length v = numJoints c /\
  (currentState s = VOCAB_CC_MOVL_CONTROLLING \/ currentState s = VOCAB_CC_MOVV_CONTROLLING) /\
  exists e, In (GetEncoders, e) tr /\ ok e = true /\ inside c (vals e).
Proof.
  intros E H. destruct (run_reads _ _ _ _ _ E) as (e & tr' & X). { intros ->. contradiction. }
  pose proof (run_spec _ _ _ _ _ E) as (F & P). rewrite Forall_forall in F. destruct (F _ H) as (F1 & F2). split; [exact F1|]. split; [exact F2|].
  split.
  - destruct (Z.eq_dec (currentState s) VOCAB_CC_MOVL_CONTROLLING) as [?|N1]; [now left|].
    destruct (Z.eq_dec (currentState s) VOCAB_CC_MOVV_CONTROLLING) as [?|N2]; [now right|]. exfalso.
    assert (Al : all (fun x => velocity_call x = false) (fun _ _ => True)
       (let* suppressed := cycle_body c (currentState s) in if suppressed then Ret tt else modify (set_cmcSuccess false) ;; let* _ := stopControl c in Ret tt)).
    { apply all_bind; [now apply body_velocity|]. intros []; pall; auto. apply all_stop; repeat split; auto. }
    unfold run in E. cbn [bind look exec] in E. destruct Z.eqb.
    + cbn in E. destruct E as (-> & _). contradiction.
    + apply (all_calls _ _ _ _ _ _ Al) in E. rewrite Forall_forall in E. specialize (E _ H). discriminate.
  - exists e. rewrite X. cbn.
    assert (M : motions tr <> []).
    { intros M. assert (In (VelocityMove v) (motions tr)) by (apply filter_In; split; [apply in_map_iff; eexists; split; [|exact H]; reflexivity|reflexivity]).
      rewrite M in *. contradiction. }
    destruct P as [(_ & -> & _)|(_ & [(_ & U & _)|[(_ & (A1 & _) & _)|[(_ & _ & _ & G)|(z & _ & A1)]]])]; try congruence.
    + destruct U as (U & _). rewrite Forall_forall in U. specialize (U _ H). discriminate.
    + rewrite X in G. apply Forall_cons_iff in G. destruct G as ((G1 & G2) & _). auto.
Qed.
Lemma retreating_fill c q v : retreating c (fill 0 (numJoints c) q) v <-> retreating c q v.
Proof. unfold retreating. split; intros H j Hj; specialize (H j Hj); rewrite fill_nth in * by assumption; exact H. Qed.
Lemma retreating_firstn c q v : retreating c q v -> retreating c q (firstn (numJoints c) v).
Proof. unfold retreating. intros H j Hj. specialize (H j Hj). rewrite nth_firstn by assumption. exact H. Qed.

Section Twist.
Variables (c : cfg) (x : list R) (s : st).
Notation n := (numJoints c).
(** everything twist does *)
Inductive twist_run : list event -> outcome Datatypes.unit -> Prop :=
| tw_refused tr : (currentState s <> VOCAB_CC_NOT_CONTROLLING \/ streamingCommand s <> VOCAB_CC_TWIST) -> tr = [] -> twist_run tr (Done tt)
| tw_mode a : ~ all_in_mode n VOCAB_CM_VELOCITY a -> twist_run [(GetControlModes, a)] (Done tt)
| tw_trouble a tr e : currentState s = VOCAB_CC_NOT_CONTROLLING -> streamingCommand s = VOCAB_CC_TWIST -> all_in_mode n VOCAB_CM_VELOCITY a ->
    motions tr = [] -> twist_run ((GetControlModes, a) :: tr) (Trouble e)
| tw_halt a tr b : currentState s = VOCAB_CC_NOT_CONTROLLING -> streamingCommand s = VOCAB_CC_TWIST -> all_in_mode n VOCAB_CM_VELOCITY a ->
    motions tr = [] -> twist_run ((GetControlModes, a) :: tr ++ [(VelocityMove (zeros n), b)]) (Done tt)
| tw_moved a aq aw b : currentState s = VOCAB_CC_NOT_CONTROLLING -> streamingCommand s = VOCAB_CC_TWIST -> all_in_mode n VOCAB_CM_VELOCITY a ->
    ok aq = true -> ok aw = true -> slow c (vals aw) -> (n <= length (vals aw))%nat ->
    checkJointLimitsDir c (fill 0 n (vals aq)) (vals aw) = Some true ->
    twist_run [(GetControlModes, a); (GetEncoders, aq); (DiffInvKin (fill 0 n (vals aq)) x (referenceFrame s), aw);
               (VelocityMove (firstn n (vals aw)), b)] (Done tt).
Lemma twist_runs tr o s' : exec (twist c x) s tr o s' -> s' = s /\ twist_run tr o.
Proof.
  apply (wp_sound _ _ (fun tr o s' => s' = s /\ twist_run tr o)). unfold twist. go. destruct (Z.eqb_spec (currentState s) VOCAB_CC_NOT_CONTROLLING) as [E1|E1]; cbn [negb]; go.
  2:{ split; [reflexivity|]. now constructor; [left|]. }
  destruct (Z.eqb_spec (streamingCommand s) VOCAB_CC_TWIST) as [E2|E2]; cbn [negb]; go.
  2:{ split; [reflexivity|]. now constructor; [right|]. }
  apply wp_check. intros a b A. destruct b; cbn [negb]; go.
  2:{ split; [reflexivity|]. apply tw_mode. rewrite <- A. discriminate. }
  pose proof (proj1 A eq_refl) as A'. intros aq. brk; go.
  2:{ intros z. split; [reflexivity|]. cbn [app]. now apply (tw_halt a [_]). }
  intros aw. brk; go.
  2:{ intros z. split; [reflexivity|]. cbn [app]. now apply (tw_halt a [_; _]). }
  destruct checkJointLimitsDir as [[]|] eqn:D; go; cbn [negb]; go.
  2:{ intros z. split; [reflexivity|]. cbn [app]. now apply (tw_halt a [_; _]). }
  2:{ split; [reflexivity|]. cbn [app]. now apply tw_trouble. }
  destruct checkJointVelocities as [[]|] eqn:V; go; cbn [negb]; go.
  2:{ intros z. split; [reflexivity|]. cbn [app]. now apply (tw_halt a [_; _]). }
  2:{ split; [reflexivity|]. cbn [app]. now apply tw_trouble. }
  apply velocities_true in V. destruct V as (V & L).
  destruct first_n as [w|] eqn:W; go.
  2:{ split; [reflexivity|]. cbn [app]. now apply tw_trouble. }
  apply first_n_some in W. destruct W as (_ & ->). intros z. split; [reflexivity|]. cbn [app]. now apply tw_moved.
Qed.
End Twist.
Lemma twist_velocity c x s tr o s' v a : complete c -> wide c -> exec (twist c x) s tr o s' -> In (VelocityMove v, a) tr ->
  v = repeat 0 (numJoints c) \/
  (slow c v /\ length v = numJoints c /\ exists e, In (GetEncoders, e) tr /\ ok e = true /\ retreating c (vals e) v).
Proof.
  intros Cc Wc E H. apply twist_runs in E. destruct E as (_ & E). destruct E as [tr _ ->|b _|b tr e _ _ _ M|b tr d _ _ _ M|b aq aw d _ _ _ O1 O2 V L D].
  - contradiction.
  - cbn in H. intuition congruence.
  - exfalso. destruct H as [H|H]; [discriminate|].
    assert (In (VelocityMove v) (motions tr)) by (apply filter_In; split; [apply in_map_iff; eexists; split; [|exact H]; reflexivity|reflexivity]).
    rewrite M in *. contradiction.
  - destruct H as [H|H]; [discriminate|]. apply in_app_iff in H. destruct H as [H|[H|[]]]; [|injection H as <- _; left; reflexivity].
    exfalso. assert (In (VelocityMove v) (motions tr)) by (apply filter_In; split; [apply in_map_iff; eexists; split; [|exact H]; reflexivity|reflexivity]).
    rewrite M in *. contradiction.
  - destruct H as [H|[H|[H|[H|[]]]]]; try discriminate. injection H as <- <-. right. split; [now apply firstn_slow|].
    split; [now apply firstn_length_le|]. exists aq. cbn. split; [auto|]. split; [exact O1|].
    destruct (checkJointLimitsDir_ok c (fill 0 (numJoints c) (vals aq)) (vals aw) Cc Wc (fill_length _ _ _) L) as (b' & B1 & B2).
    rewrite D in B1. injection B1 as <-. apply retreating_firstn, retreating_fill. now apply B2.
Qed.
(** and nothing else sends velocities *)
Lemma other_velocity c o s tr b s' : exec (do_op c o) s tr b s' -> (forall x, o <> OTwist x) -> o <> OCycle ->
  forall v a, ~ In (VelocityMove v, a) tr.
Proof.
  intros E N1 N2 v a H. assert (Al : all (fun x => velocity_call x = false) (fun _ _ => True) (do_op c o)).
  { destruct o; try (exfalso; eapply N1; reflexivity); try congruence; cbn [do_op]; unfold act, getParameter, getParameters;
      match goal with |- context [pose _ _] => unfold pose | |- context [wrench _ _] => unfold wrench, read_encoders | _ => idtac end;
      pall; try op_all; repeat split; auto. }
  apply (all_calls _ _ _ _ _ _ Al) in E. rewrite Forall_forall in E. specialize (E _ H). discriminate.
Qed.
