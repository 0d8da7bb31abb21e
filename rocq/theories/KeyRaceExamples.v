(** Keys and streaming thread at once: runs. *)
From Coq Require Import Reals List Bool String Ascii ZArith Lra Lia.
From Verif Require Import Kdl KdlFacts KdlRot Trig TrigFacts KdlRotFacts KinRep KdlSolver KdlSolverExamples TreeFacts4 Vocab Keyboard KeyboardSpec KeyboardFacts KeyboardFacts7 KeyboardFacts8 KeyRace KeyRaceSpec KeyRaceFacts KeyRaceFacts2.
Import ListNotations.
Open Scope R_scope.
Local Notation length := List.length.
Import Vocab Keyboard.

Definition vA : list R := [0 + 5 / 1000; 0; 0; 0; 0; 0].
Lemma still_0 : forall x, x = 0 -> Rltb (Rabs x) (1 / 1000000) = true.
Proof. intros x ->. rewrite Rabs_R0. apply Rltb_true. lra. Qed.
Lemma not_still : forallb (fun x => Reqb x 0) (roundZeroes vA) = false.
Proof.
  unfold roundZeroes, vA. cbn [map forallb]. replace (Rltb (Rabs (0 + 5 / 1000)) (1 / 1000000)) with false by (symmetry; apply Rltb_false; rewrite Rabs_pos_eq; lra).
  replace (Reqb (0 + 5 / 1000) 0) with false by (symmetry; apply Reqb_false; lra). reflexivity.
Qed.
Definition env : k_env := fine here 0.
Definition delta_A : list R := map (fun x => 50 / 1000 * x) vA.
Definition line_A : k_line := KLine (vectorToFrame here) (vectorToTwist vA) 0.
Definition st_T : k_st := KSt CartMode JVelocity [] vA VOCAB_CC_ACTUATOR_NONE TCP_FRAME false true delta_A None false.
Definition st_B : k_st := KSt CartMode JVelocity [] vA VOCAB_CC_ACTUATOR_NONE BASE_FRAME false false [] (Some line_A) false.
Lemma press_T : pressKey cfg_stream "a" env (st_stream TCP_FRAME) = Some ([KStop; KPreset VOCAB_CC_POSE], st_T).
Proof.
  unfold pressKey, cartCommand. cbn -[roundZeroes forallb Rdiv Rplus]. fold vA. rewrite not_still. reflexivity.
Qed.
Lemma press_B : pressKey cfg_stream "a" env (st_stream BASE_FRAME) = Some ([KStop; KPreset VOCAB_CC_POSE], st_B).
Proof.
  unfold pressKey, cartCommand. cbn -[roundZeroes forallb Rdiv Rplus]. fold vA. rewrite not_still. reflexivity.
Qed.
Lemma steps_T : key_steps cfg_stream "a" env [KStop; KPreset VOCAB_CC_POSE] st_T = [Suspend; Call KStop; Call (KPreset VOCAB_CC_POSE); StoreDelta delta_A; Resume].
Proof. unfold key_steps. cbn -[roundZeroes forallb Rdiv]. unfold cart_end. change (k_cv st_T) with vA. rewrite not_still. reflexivity. Qed.
Lemma steps_B : key_steps cfg_stream "a" env [KStop; KPreset VOCAB_CC_POSE] st_B = [Suspend; Call KStop; Call (KPreset VOCAB_CC_POSE); StoreLine line_A; Resume].
Proof. unfold key_steps. cbn -[roundZeroes forallb Rdiv]. unfold cart_end. change (k_cv st_B) with vA. rewrite not_still. reflexivity. Qed.
(** the key that moves along X, and the thread up to its first look at the frame, or up to its call *)
Definition going : list k_turn := TKey "a"%char env :: repeat TMain 5.
Definition sent_a : list (bool * k_cmd) := [(false, KStop); (false, KStop); (false, KPreset VOCAB_CC_POSE)].
Lemma going_T : kw_play cfg_stream going (kw_begin [KStop] (st_stream TCP_FRAME)) = Some (KW st_T [] Waiting sent_a).
Proof. unfold going. cbn [kw_play kw_step kw_begin kw_todo kw_st]. change (k_over (st_stream TCP_FRAME)) with false. cbv iota. rewrite press_T, steps_T. reflexivity. Qed.
Lemma going_B : kw_play cfg_stream going (kw_begin [KStop] (st_stream BASE_FRAME)) = Some (KW st_B [] Waiting sent_a).
Proof. unfold going. cbn [kw_play kw_step kw_begin kw_todo kw_st]. change (k_over (st_stream BASE_FRAME)) with false. cbv iota. rewrite press_B, steps_B. reflexivity. Qed.

(** ** The stop key is pressed while the thread is in run *)
Definition enter : ascii := "013"%char.
Definition st_stop : k_st := set_ctl NotControlling (set_cv (repeat 0 6) (set_susp true st_T)).
Lemma press_stop : pressKey cfg_stream enter env st_T = Some ([KStop], st_stop).
Proof. unfold pressKey. change (key_action enter) with AStop. cbv iota beta. unfold issueStop. reflexivity. Qed.
Lemma steps_stop : forall s, key_steps cfg_stream enter env [KStop] s = [Suspend; Call KStop].
Proof. intros s. reflexivity. Qed.
Definition late : list k_turn := [TMain; TMain; TThread 0; TThread 0].
Lemma late_pose : kw_play cfg_stream (TKey enter env :: late) (KW st_T [] InTcp sent_a) = Some (KW st_stop [] Waiting (sent_a ++ [(false, KStop); (true, KPose delta_A)])).
Proof. unfold late. cbn [kw_play kw_step kw_todo kw_st]. change (k_over st_T) with false. cbv iota. rewrite press_stop, steps_stop. reflexivity. Qed.
Lemma in_run : kw_play cfg_stream (going ++ [TThread 0; TThread 0]) (kw_begin [KStop] (st_stream TCP_FRAME)) = Some (KW st_T [] InTcp sent_a).
Proof. rewrite play_app, going_T. reflexivity. Qed.
Lemma late_going : kw_play cfg_stream ((going ++ [TThread 0; TThread 0]) ++ TKey enter env :: late) (kw_begin [KStop] (st_stream TCP_FRAME)) =
  Some (KW st_stop [] Waiting (sent_a ++ [(false, KStop); (true, KPose delta_A)])).
Proof. rewrite play_app, in_run. apply late_pose. Qed.
Theorem stop_refuted : exists r a cs0 c s ts w k e ts2 w2 l1 l2, k_configure r (Some a) = Some (cs0, c, s) /\ c_pose a = true /\
  kw_play c ts (kw_begin cs0 s) = Some w /\ kw_todo w = [] /\ stop_key k /\ no_axis ts2 /\ kw_play c (TKey k e :: ts2) w = Some w2 /\
  kw_sent w2 = kw_sent w ++ l1 ++ (false, KStop) :: l2 /\ streamed l2 <> [].
Proof.
  exists None, (ctl_stream TCP_FRAME), [KStop], cfg_stream, (st_stream TCP_FRAME), (going ++ [TThread 0; TThread 0]), (KW st_T [] InTcp sent_a), enter, env, late,
    (KW st_stop [] Waiting (sent_a ++ [(false, KStop); (true, KPose delta_A)])), [], [(true, KPose delta_A)].
  split; [apply conf_stream; auto|]. split; [reflexivity|]. split; [apply in_run|]. split; [reflexivity|].
  split; [unfold stop_key, enter; cbn; intuition discriminate|]. split; [repeat constructor; cbn; intuition discriminate|]. split; [apply late_pose|]. split; [reflexivity|discriminate].
Qed.

(** ** The frame is swapped while the thread is in run *)
Theorem line_missing_refuted : exists a cs0 c s ts, k_configure None (Some a) = Some (cs0, c, s) /\ kw_play c ts (kw_begin cs0 s) = None.
Proof.
  exists (ctl_stream TCP_FRAME), [KStop], cfg_stream, (st_stream TCP_FRAME), (going ++ [TThread 0] ++ TKey "m"%char env :: repeat TMain 4 ++ [TThread 0; TThread 0]).
  split; [apply conf_stream; auto|]. rewrite play_app, going_T. reflexivity.
Qed.
Lemma line_start : line_pos line_A (0 - 0) = Some (F mid (V 1 0 0)).
Proof.
  unfold line_A. rewrite (target_frame 1 : vectorToFrame here = _). assert (vectorToTwist vA = Tw (V (5 / 1000) 0 0) vzero) as ->.
  { unfold vectorToTwist, vA, vzero. cbn [nth]. rewrite Rplus_0_l. reflexivity. }
  assert (N : norm (V (5 / 1000) 0 0) = 5 / 1000).
  { unfold norm, dot. cbn. replace (_ + _ + _) with ((5 / 1000) * (5 / 1000)) by ring. apply sqrt_square. lra. }
  assert (N0 : norm vzero = 0) by (unfold norm, dot; cbn; replace (_ + _ + _) with 0 by ring; apply sqrt_0).
  rewrite line_spec.
  - rewrite N, N0. rewrite Rmult_0_r. replace (Rmin (0 - 0) (10 / Rmax (5 / 1000) 0)) with 0.
    + unfold Rot. rewrite Rot2_zero. do 2 f_equal; [apply mat_eq; cbn; ring|apply vec_eq; cbn; ring].
    + rewrite Rmin_left; [ring|]. rewrite Rmax_left by lra. lra.
  - split; [apply mat_eq; cbn; ring|unfold det; cbn; ring].
  - right. rewrite N. unfold kdl_eps. lra.
  - left. reflexivity.
  - intros [E _]. injection E. lra.
  - lra.
  - rewrite N, N0, Rmax_left; lra.
Qed.
Definition st_swap : k_st := set_tcp true (set_fr TCP_FRAME (set_ctl NotControlling (set_cv (repeat 0 6) (set_susp true st_B)))).
Definition st_swap0 : k_st := set_tcp false st_swap.
Lemma press_swap : pressKey cfg_stream "m" env st_B = Some ([KStop; KFrame TCP_FRAME], st_swap).
Proof. reflexivity. Qed.
Lemma steps_swap : key_steps cfg_stream "m" env [KStop; KFrame TCP_FRAME] st_swap = [Suspend; Call KStop; Call (KFrame TCP_FRAME); UseTcp true].
Proof. reflexivity. Qed.
Lemma sending_B : kw_play cfg_stream (repeat (TThread 0) 3) (KW st_B [] Waiting sent_a) = Some (KW st_B [] (Sending (KPose here)) sent_a).
Proof.
  unfold repeat. cbn [kw_play]. change (kw_step cfg_stream (TThread 0) (KW st_B [] Waiting sent_a)) with (Some (KW st_B [] Woken sent_a)). cbv iota.
  change (kw_step cfg_stream (TThread 0) (KW st_B [] Woken sent_a)) with (Some (KW st_B [] InBase sent_a)). cbv iota.
  change (kw_step cfg_stream (TThread 0) (KW st_B [] InBase sent_a)) with (Some (KW st_B [] (Sending (match line_pos line_A (0 - 0) with Some h => KPose (frameToVector h) | None => KPoseNaN end)) sent_a)).
  cbv iota. rewrite line_start, shift_vector. reflexivity.
Qed.
Definition swap_turns : list k_turn := TKey "m"%char env :: repeat TMain 4 ++ [TThread 0].
Lemma swap_B : kw_play cfg_stream swap_turns (KW st_B [] (Sending (KPose here)) sent_a) =
  Some (KW st_swap [] Waiting ((sent_a ++ [(false, KStop)]) ++ [(false, KFrame TCP_FRAME); (true, KPose here)])).
Proof. unfold swap_turns. cbn [kw_play kw_step kw_todo kw_st]. change (k_over st_B) with false. cbv iota. rewrite press_swap, steps_swap. reflexivity. Qed.
(** the answer of stat, a metre away from the base, is sent as a displacement in the frame of the tool *)
Theorem frame_refuted : exists a cs0 c s ts w l e x, k_configure None (Some a) = Some (cs0, c, s) /\ kw_play c ts (kw_begin cs0 s) = Some w /\
  In (TKey "a"%char e) ts /\ e_stat e = Some x /\ (forall k e', In (TKey k e') ts -> k = "a"%char \/ k = "m"%char) /\
  kw_sent w = l ++ [(false, KFrame TCP_FRAME); (true, KPose x)] /\ nth 0 x 0 = 1.
Proof.
  exists (ctl_stream BASE_FRAME), [KStop], cfg_stream, (st_stream BASE_FRAME), (going ++ repeat (TThread 0) 3 ++ swap_turns),
    (KW st_swap [] Waiting ((sent_a ++ [(false, KStop)]) ++ [(false, KFrame TCP_FRAME); (true, KPose here)])), (sent_a ++ [(false, KStop)]), env, here.
  split; [apply conf_stream; auto|]. split; [|split; [left; reflexivity|split; [reflexivity|split; [|split]]]].
  - rewrite play_app, going_B, play_app, sending_B. apply swap_B.
  - intros k e' I. apply in_app_or in I. destruct I as [I|I]; cbn in I; repeat (destruct I as [I|I]; [first [discriminate|injection I as <- <-; auto]|]); destruct I.
  - reflexivity.
  - reflexivity.
Qed.
(** the poses of that run, and when the thread could have sent them at once *)
Lemma late_example : no_swap ((going ++ [TThread 0; TThread 0]) ++ TKey enter env :: late) /\
  run_at_once cfg_stream ((going ++ [TThread 0; TThread 0]) ++ TKey enter env :: late) (kw_begin [KStop] (st_stream TCP_FRAME)) (KPose delta_A).
Proof.
  assert (no_swap ((going ++ [TThread 0; TThread 0]) ++ TKey enter env :: late)) as N.
  { unfold no_swap, going, late. repeat constructor; cbn; discriminate. }
  split; [exact N|]. apply (poses_at_once None (Some (ctl_stream TCP_FRAME)) [KStop] cfg_stream _ _ _ _ (conf_stream _ (or_intror eq_refl)) N late_going). cbn. auto.
Qed.
