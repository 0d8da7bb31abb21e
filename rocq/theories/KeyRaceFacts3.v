(** A key, and the thread, that are not interrupted do what Keyboard.v says. *)
From Coq Require Import Reals List Bool String Ascii ZArith Lia Lra.
From Verif Require Import Kdl KdlRot KinRep Vocab Keyboard KeyboardSpec KdlFacts KdlRotFacts Trig TrigFacts KeyboardFacts KeyRace KeyRaceSpec KeyRaceFacts.
Import ListNotations.
Open Scope nat_scope.
Local Notation length := List.length.

Definition steps_st (l : list k_micro) (s : k_st) : k_st := fold_left (fun s m => do_micro m s) l s.
Lemma steps_app l1 l2 s : steps_st (l1 ++ l2) s = steps_st l2 (steps_st l1 s).
Proof. apply fold_left_app. Qed.
Lemma calls_app c l1 l2 : k_calls c (l1 ++ l2) = k_calls c l1 ++ k_calls c l2.
Proof. unfold k_calls. rewrite map_app, concat_app. reflexivity. Qed.
Definition stopping (c : k_cfg) (cs : list k_cmd) : bool := k_thread c && existsb (fun x => match x with KStop => true | _ => false end) cs.
Lemma calls_st c : forall cs s, steps_st (k_calls c cs) s = if stopping c cs then set_susp true s else s.
Proof.
  unfold stopping. induction cs as [|x cs IH]; intros s; [cbn; rewrite andb_false_r; reflexivity|]. change (x :: cs) with ([x] ++ cs). rewrite calls_app, steps_app, existsb_app.
  rewrite IH. destruct x; cbn; try reflexivity. destruct (k_thread c); cbn; [|reflexivity]. destruct (existsb _ cs); reflexivity.
Qed.
Lemma own_self s : own s s = s. Proof. destruct s; reflexivity. Qed.
Lemma stop_own c ok s cs s' s0 : issueStop c ok s = (cs, s') -> own s0 s' = own s0 (own s s') /\
  (k_susp s' = if stopping c cs then true else k_susp s) /\ k_tcp s' = k_tcp s /\ k_delta s' = k_delta s /\ k_traj s' = k_traj s /\ (k_cart c && k_thread c = true -> stopping c cs = true).
Proof.
  intros H. unfold issueStop in H. split; [reflexivity|]. unfold stopping.
  destruct (k_cart c), (k_board c), (k_thread c), (Z.eqb (k_act s) VOCAB_CC_ACTUATOR_NONE), ok, (k_jm s); cbn in H; injection H as <- <-; repeat split; cbn; try reflexivity; auto.
Qed.
(** a state is told by what the thread does not see and by the four members that it does see *)
Lemma own_eq s s' : k_susp s = k_susp s' -> k_tcp s = k_tcp s' -> k_delta s = k_delta s' -> k_traj s = k_traj s' -> own s s' = s'.
Proof. destruct s, s'; cbn. intros -> -> -> ->. reflexivity. Qed.
Lemma plain c cs s s' : (k_susp s' = if stopping c cs then true else k_susp s) -> k_tcp s' = k_tcp s -> k_delta s' = k_delta s -> k_traj s' = k_traj s ->
  steps_st (k_calls c cs) (own s s') = s'.
Proof.
  intros S T D J. rewrite calls_st. destruct s, s'; cbn in *. subst. destruct (stopping c cs); reflexivity.
Qed.
Lemma stop_alone c ok s cs s' : issueStop c ok s = (cs, s') -> steps_st (k_calls c cs) (own s s') = s'.
Proof. intros H. destruct (stop_own c ok s cs s' s H) as (_ & A & B & C & D & _). apply plain; assumption. Qed.
Definition still (v : list R) : bool := forallb (fun x => Reqb x 0) (roundZeroes v).
Definition seen (c : k_cfg) (s : k_st) (cs : list k_cmd) (s' : k_st) : Prop :=
  (k_susp s' = if stopping c cs then true else k_susp s) /\ k_tcp s' = k_tcp s /\ k_delta s' = k_delta s /\ k_traj s' = k_traj s.
Lemma seen_alone c s cs s' : seen c s cs s' -> steps_st (k_calls c cs) (own s s') = s'.
Proof. intros (A & B & C & D). apply plain; assumption. Qed.
Lemma stopping_app c l1 l2 : stopping c (l1 ++ l2) = stopping c l1 || stopping c l2.
Proof. unfold stopping. rewrite existsb_app. destruct (k_thread c), (existsb _ l1); reflexivity. Qed.
Lemma seen_app c s c1 s1 c2 s2 : seen c s c1 s1 -> seen c s1 c2 s2 -> seen c s (c1 ++ c2) s2.
Proof.
  intros (A & B & C & D) (A' & B' & C' & D'). unfold seen. rewrite stopping_app, A', A, B', C', D'. repeat split; auto. destruct (stopping c c1), (stopping c c2); reflexivity.
Qed.
Lemma seen_nil c s : seen c s [] s. Proof. unfold seen, stopping. rewrite andb_false_r. auto. Qed.
Lemma seen_stop c ok s cs s' : issueStop c ok s = (cs, s') -> seen c s cs s'.
Proof. intros H. destruct (stop_own c ok s cs s' s H) as (_ & A & B & C & D & _). repeat split; assumption. Qed.
Lemma seen_call c s x : x <> KStop -> seen c s [x] s.
Proof. intros N. unfold seen, stopping. destruct x; try congruence; cbn; rewrite andb_false_r; auto. Qed.
Lemma seen_set c s cs s1 s2 : seen c s cs s1 -> k_susp s2 = k_susp s1 -> k_tcp s2 = k_tcp s1 -> k_delta s2 = k_delta s1 -> k_traj s2 = k_traj s1 -> seen c s cs s2.
Proof. unfold seen. intros (A & B & C & D) -> -> -> ->. auto. Qed.
Lemma seen_joint c j o e s cs s' : jointCommand c j o e s = Some (cs, s') -> seen c s cs s'.
Proof.
  unfold jointCommand. destruct (negb (k_board c)); [intros H; injection H as H; exact (seen_stop _ _ _ _ _ H)|].
  destruct (if negb (is_mode (k_ctl s) JointMode) then issueStop c (e_act e 0) s else ([], s)) as [c1 s1] eqn:E1.
  assert (H1 : seen c s c1 s1).
  { destruct (negb (is_mode (k_ctl s) JointMode)); [exact (seen_stop _ _ _ _ _ E1)|injection E1 as <- <-; apply seen_nil]. }
  clear E1.
  assert (GU : forall c2 s2, seen c s c2 s2 -> forall cs s', (let '(c3, s3) := issueStop c (e_act e 1) s2 in Some (c2 ++ c3, s3)) = Some (cs, s') -> seen c s cs s').
  { intros c2 s2 HS cs0 s0 H. destruct (issueStop c (e_act e 1) s2) as [c3 s3] eqn:E. injection H as <- <-. exact (seen_app _ _ _ _ _ _ HS (seen_stop _ _ _ _ _ E)). }
  assert (CL : forall x, x <> KStop -> forall c2 s2, seen c s c2 s2 -> seen c s (c2 ++ [x]) s2).
  { intros x N c2 s2 HS. exact (seen_app _ _ _ _ _ _ HS (seen_call c s2 x N)). }
  destruct (Nat.leb (k_axes c) j); [apply GU, H1|]. destruct (k_jm s1).
  - destruct (negb (e_modes e)); [apply GU, CL; [discriminate|exact H1]|]. destruct (e_encs e) as [q|]; [|apply GU, CL; [discriminate|exact H1]]. cbv zeta.
    destruct (_ && _); [discriminate|]. destruct (negb (e_move e)).
    + apply GU, CL; [discriminate|]. apply CL; [discriminate|exact H1].
    + intros H. injection H as <- <-. apply (seen_set c s _ s1); try reflexivity. apply CL; [discriminate|]. apply CL; [discriminate|exact H1].
  - destruct (negb (e_modes e)); [apply GU, CL; [discriminate|exact H1]|]. cbv zeta. destruct (negb (e_move e)).
    + apply GU, CL; [discriminate|]. apply CL; [discriminate|]. apply (seen_set c s _ s1); try reflexivity. exact H1.
    + intros H. injection H as <- <-. apply (seen_set c s _ s1); try reflexivity. apply CL; [discriminate|]. apply CL; [discriminate|exact H1].
Qed.
Lemma still_zero : forallb (fun x => Reqb x 0) (roundZeroes (repeat 0%R 6)) = true.
Proof.
  unfold roundZeroes. cbn. rewrite Rabs_R0. assert (E : Rltb 0 (1 / 1000000) = true) by (apply Rltb_true; lra). rewrite E. assert (E0 : Reqb 0 0 = true) by (apply Reqb_true; reflexivity). rewrite E0. reflexivity.
Qed.
Lemma ok_step c cs s s1 l : steps_st (k_calls c cs ++ l) (own s s1) = steps_st l (steps_st (k_calls c cs) (own s s1)).
Proof. apply steps_app. Qed.
Lemma cart_alone c i o e s cs s' : cartCommand c i o e s = (cs, s') -> steps_st (k_calls c cs ++ (if k_cart c && k_thread c then cart_end c e s' else [])) (own s s') = s'.
Proof.
  unfold cartCommand. destruct (k_cart c) eqn:CC; cbn [negb]; [|intros H; cbn; rewrite app_nil_r; exact (stop_alone _ _ _ _ _ H)].
  destruct (if negb (is_mode (k_ctl s) CartMode) then issueStop c (e_act e 0) s else ([], s)) as [c1 s1] eqn:E1.
  assert (H1 : seen c s c1 s1).
  { destruct (negb (is_mode (k_ctl s) CartMode)); [exact (seen_stop _ _ _ _ _ E1)|injection E1 as <- <-; apply seen_nil]. }
  clear E1. cbv zeta. set (v := put i _ _). rewrite andb_true_l. destruct (k_thread c) eqn:T.
  2:{ rewrite app_nil_r. destruct (forallb _ _); intros H; injection H as <- <-; apply seen_alone; (apply (seen_set c s _ s1); [|reflexivity..]); (apply (seen_app c s c1 s1); [exact H1|apply seen_call; discriminate]). }
  rewrite steps_app, calls_st. change (k_cv (set_cv v s1)) with v. destruct (forallb (fun x => Reqb x 0) (roundZeroes v)) eqn:Z.
  - intros H. injection H as <- <-. unfold cart_end. match goal with |- context [roundZeroes (k_cv ?x)] => change (k_cv x) with (repeat 0%R 6) end. rewrite still_zero. destruct H1 as (A & B & C & D).
    destruct s, s1; cbn in *. subst. destruct (stopping c c1); reflexivity.
  - unfold thread_configure. destruct (k_streaming c && negb (e_preset e)) eqn:P; cbn [negb].
    + intros H. injection H as <- <-. unfold cart_end. change (k_cv (set_cv v s1)) with v. rewrite Z, P. cbn [steps_st fold_left].
      rewrite <- calls_st. apply seen_alone.
      apply (seen_set c s _ s1); try reflexivity. apply (seen_app c s c1 s1); [exact H1|]. destruct (k_streaming c); [apply seen_call; discriminate|apply seen_nil].
    + assert (H2 : seen c s (c1 ++ (if k_streaming c then [KPreset VOCAB_CC_POSE] else [])) s1).
      { apply (seen_app c s c1 s1); [exact H1|]. destruct (k_streaming c); [apply seen_call; discriminate|apply seen_nil]. }
      change (k_tcp (set_cv v s1)) with (k_tcp s1). destruct (k_tcp s1) eqn:TC; cbn [negb].
      * intros H. injection H as <- <-. unfold cart_end. match goal with |- context [roundZeroes (k_cv ?x)] => change (k_cv x) with v; change (k_tcp x) with (k_tcp s1) end. rewrite Z, P, TC.
        destruct H2 as (A & B & C & D). destruct s, s1; cbn in *. subst. destruct (stopping c _); reflexivity.
      * destruct (e_stat e) as [x|] eqn:ST; cbn [negb]; intros H; injection H as <- <-; unfold cart_end; match goal with |- context [roundZeroes (k_cv ?x)] => change (k_cv x) with v; change (k_tcp x) with (k_tcp s1) end; rewrite Z, P, TC, ST;
        destruct H2 as (A & B & C & D); destruct s, s1; cbn in *; subst; destruct (stopping c _); reflexivity.
Qed.
Lemma frame_alone c e s cs s' : toggleReferenceFrame c e s = (cs, s') ->
  steps_st (k_calls c cs ++ (if k_cart c && k_thread c then if e_frame e then [UseTcp (Z.eqb (k_fr s') TCP_FRAME)] else [] else [])) (own s s') = s'.
Proof.
  unfold toggleReferenceFrame. destruct (k_cart c) eqn:CC; cbn [negb]; [|intros H; cbn; rewrite app_nil_r; exact (stop_alone _ _ _ _ _ H)].
  destruct (issueStop c (e_act e 0) s) as [c1 s1] eqn:E1. apply seen_stop in E1. cbv zeta. rewrite andb_true_l. set (f := if Z.eqb (k_fr s1) BASE_FRAME then TCP_FRAME else BASE_FRAME).
  assert (H2 : seen c s (c1 ++ [KFrame f]) s1) by (apply (seen_app c s c1 s1); [exact E1|apply seen_call; discriminate]).
  destruct (e_frame e); cbn [negb].
  - destruct (k_thread c) eqn:T; intros H; injection H as <- <-.
    + rewrite steps_app, calls_st. cbn [k_fr set_tcp set_fr]. destruct H2 as (A & B & C & D). destruct s, s1; cbn in *. subst. destruct (stopping c _); reflexivity.
    + rewrite app_nil_r. apply seen_alone. apply (seen_set c s _ s1); try reflexivity. exact H2.
  - intros H. injection H as <- <-. replace (if k_thread c then [] else []) with (@nil k_micro) by (destruct (k_thread c); reflexivity). rewrite app_nil_r. apply seen_alone, H2.
Qed.
Lemma key_st c k e s cs s' : pressKey c k e s = Some (cs, s') -> steps_st (key_steps c k e cs s') (own s s') = s'.
Proof.
  intros H. unfold key_steps. unfold pressKey in H.
  assert (NE : forall l : list k_micro, l ++ (if k_cart c && k_thread c then [] else []) = l) by (intros l; destruct (_ && _); apply app_nil_r).
  assert (ST : forall ok, issueStop c ok s = (cs, s') -> steps_st (k_calls c cs) (own s s') = s') by (intros ok E; exact (stop_alone _ _ _ _ _ E)).
  assert (SM : s' = s -> cs = [] -> steps_st (k_calls c cs) (own s s') = s') by (intros -> ->; apply own_self).
  destruct (key_action k) eqn:K.
  - rewrite NE. destruct (issueStop c (e_act e 0) s) as [c1 s1] eqn:E. injection H as <- <-. apply seen_alone. apply (seen_set c s _ s1); try reflexivity. exact (seen_stop _ _ _ _ _ E).
  - rewrite NE. injection H as <- <-. apply SM; reflexivity.
  - rewrite NE. unfold printJoints in H. destruct (negb (k_board c)); [injection H as H; exact (ST _ H)|injection H as <- <-; apply SM; reflexivity].
  - rewrite NE. unfold printCart in H. destruct (negb (k_cart c)); [injection H as H; exact (ST _ H)|injection H as <- <-; apply SM; reflexivity].
  - rewrite NE. apply seen_alone. exact (seen_joint _ _ _ _ _ _ _ H).
  - injection H as H. exact (cart_alone _ _ _ _ _ _ _ H).
  - rewrite NE. injection H as H. unfold toggleJointMode in H. destruct (negb (k_board c)); [exact (ST _ H)|]. destruct (issueStop c (e_act e 0) s) as [c1 s1] eqn:E. injection H as <- <-.
    apply seen_alone. apply (seen_set c s _ s1); try reflexivity. exact (seen_stop _ _ _ _ _ E).
  - injection H as H. exact (frame_alone _ _ _ _ _ H).
  - rewrite NE. injection H as H. unfold actuateTool in H. destruct (negb (k_cart c)); [exact (ST _ H)|]. injection H as <- <-. apply seen_alone. apply (seen_set c s _ s); try (destruct (e_act e 0); reflexivity). apply seen_call. discriminate.
  - rewrite NE. injection H as H. exact (ST _ H).
Qed.
Lemma calls_sent c cs : List.concat (map micro_calls (k_calls c cs)) = map (pair false) cs.
Proof.
  induction cs as [|x cs IH]; [reflexivity|]. change (x :: cs) with ([x] ++ cs). rewrite calls_app, !map_app, concat_app, IH. f_equal. destruct x; cbn; try reflexivity. destruct (k_thread c); reflexivity.
Qed.
Lemma key_sent c k e cs s : List.concat (map micro_calls (key_steps c k e cs s)) = map (pair false) cs.
Proof.
  unfold key_steps. rewrite map_app, concat_app, calls_sent. rewrite <- app_nil_r. f_equal. destruct (_ && _); [|reflexivity]. destruct (key_action k); try reflexivity.
  - unfold cart_end. destruct (forallb _ _); [reflexivity|]. destruct (_ && _); [reflexivity|]. destruct (k_tcp s); [reflexivity|]. destruct (e_stat e); reflexivity.
  - destruct (e_frame e); reflexivity.
Qed.
Lemma play_main c : forall l s ph sent, kw_play c (repeat TMain (length l)) (KW s l ph sent) = Some (KW (steps_st l s) [] ph (sent ++ List.concat (map micro_calls l))).
Proof.
  induction l as [|m l IH]; intros s ph sent; cbn; [rewrite app_nil_r; reflexivity|]. rewrite IH, <- app_assoc. reflexivity.
Qed.
(** a key whose handling is not interrupted *)
Theorem key_alone c k e s cs s' ph sent : k_over s = false -> pressKey c k e s = Some (cs, s') -> exists n,
  kw_play c (TKey k e :: repeat TMain n) (KW s [] ph sent) = Some (KW s' [] ph (sent ++ map (pair false) cs)).
Proof.
  intros O H. exists (length (key_steps c k e cs s')). cbn [kw_play kw_step kw_todo kw_st]. rewrite O, H. cbn [kw_phase kw_sent]. rewrite play_main, key_sent, (key_st _ _ _ _ _ _ H). reflexivity.
Qed.
(** an event that is not interrupted *)
Definition by_whom (ev : k_event) : bool := match ev with EKey _ _ => false | ETick _ => true end.
Theorem event_alone c ev s sent : exists ts,
  kw_play c ts (KW s [] Waiting sent) = match k_step c ev s with None => None | Some (cs, s') => Some (KW s' [] Waiting (sent ++ map (pair (by_whom ev)) cs)) end.
Proof.
  destruct ev as [k e|now]; cbn [k_step by_whom].
  - destruct (k_over s) eqn:O; [exists []; cbn; rewrite app_nil_r; reflexivity|]. destruct (pressKey c k e s) as [[cs s']|] eqn:P.
    + destruct (key_alone c k e s cs s' Waiting sent O P) as (n & E). exists (TKey k e :: repeat TMain n). exact E.
    + exists [TKey k e]. cbn. rewrite O, P. reflexivity.
  - destruct (k_thread c && negb (k_susp s)) eqn:T; [|exists []; cbn; rewrite app_nil_r; reflexivity].
    unfold thread_run. exists (repeat (TThread now) 4). cbn. rewrite T. cbn. destruct (k_tcp s) eqn:C; cbn; [reflexivity|]. destruct (k_traj s) as [l|]; [|reflexivity]. cbn. destruct (line_pos l (now - l_time l)%R); reflexivity.
Qed.
(** every run of Keyboard.v, event by event, is one of the runs in which the two are at once *)
Theorem runs_alone c : forall evs s sent css s', k_run c evs s = Some (css, s') -> exists ts w,
  kw_play c ts (KW s [] Waiting sent) = Some w /\ kw_st w = s' /\ kw_todo w = [] /\ kw_phase w = Waiting /\ map snd (kw_sent w) = map snd sent ++ List.concat css.
Proof.
  induction evs as [|ev evs IH]; intros s sent css s' H; cbn [k_run] in H.
  - injection H as <- <-. exists [], (KW s [] Waiting sent). cbn. rewrite app_nil_r. auto.
  - destruct (k_step c ev s) as [[cs s1]|] eqn:E; [|discriminate]. destruct (k_run c evs s1) as [[css1 s2]|] eqn:R; [|discriminate]. injection H as <- <-.
    destruct (event_alone c ev s sent) as (ts1 & P1). rewrite E in P1.
    destruct (IH s1 (sent ++ map (pair (by_whom ev)) cs) css1 s2 R) as (ts2 & w & P2 & A & B & C & D). exists (ts1 ++ ts2), w.
    rewrite play_app, P1. repeat split; auto. rewrite D, map_app, map_map. cbn. rewrite map_id, <- app_assoc. reflexivity.
Qed.
