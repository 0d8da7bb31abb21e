(** Keys of the keyboard controller handled while its streaming thread runs. *)
From Coq Require Import Reals List Bool String Ascii ZArith.
From Verif Require Import Kdl KdlRot KinRep Vocab Keyboard KeyboardSpec KeyboardFacts8 KeyRace KeyRaceSpec KeyRaceFacts2 KeyRaceExamples.
Import ListNotations.
Open Scope R_scope.
Local Notation length := List.length.

(** C147: once a key has stopped the robot, no pose is streamed until a key of a Cartesian axis.  What is proved: at most one is, that of the
    run of the thread which was in course. *)
Theorem C147_one_partial : forall r a cs0 c s ts w ts2 w2 l1 l2, k_configure r (Some a) = Some (cs0, c, s) -> c_pose a = true ->
  kw_play c ts (kw_begin cs0 s) = Some w -> kw_todo w = [] -> no_axis ts2 -> kw_play c ts2 w = Some w2 ->
  kw_sent w2 = kw_sent w ++ l1 ++ (false, KStop) :: l2 -> (length (streamed l2) <= 1)%nat.
Proof. exact one_pose_left. Qed.
Print Assumptions C147_one_partial.
Example C147_one_example : kw_play cfg_stream (going ++ [TThread 0; TThread 0]) (kw_begin [KStop] (st_stream TCP_FRAME)) = Some (KW st_T [] InTcp sent_a) /\
  kw_play cfg_stream (TKey enter env :: late) (KW st_T [] InTcp sent_a) = Some (KW st_stop [] Waiting (sent_a ++ [(false, KStop); (true, KPose delta_A)])) /\
  streamed [(true, KPose delta_A)] = [KPose delta_A].
Proof. exact (conj in_run (conj late_pose eq_refl)). Qed.

(** it is false of the code: suspend does not wait for the run in course *)
Theorem C147_stop_refuted : exists r a cs0 c s ts w k e ts2 w2 l1 l2, k_configure r (Some a) = Some (cs0, c, s) /\ c_pose a = true /\
  kw_play c ts (kw_begin cs0 s) = Some w /\ kw_todo w = [] /\ stop_key k /\ no_axis ts2 /\ kw_play c (TKey k e :: ts2) w = Some w2 /\
  kw_sent w2 = kw_sent w ++ l1 ++ (false, KStop) :: l2 /\ streamed l2 <> [].
Proof. exact stop_refuted. Qed.
Print Assumptions C147_stop_refuted.

(** C148: whatever the keys and the thread do at once, each pose streamed is that of one instant, in the frame that the controller was told
    last, and nothing undefined happens.  What is proved: the first and the last, if the key that swaps the frames is not pressed. *)
Theorem C148_instant_partial : forall r a cs0 c s ts w x, k_configure r a = Some (cs0, c, s) -> no_swap ts -> kw_play c ts (kw_begin cs0 s) = Some w ->
  In x (streamed (kw_sent w)) -> run_at_once c ts (kw_begin cs0 s) x.
Proof. exact poses_at_once. Qed.
Print Assumptions C148_instant_partial.
Theorem C148_defined_partial : forall r a cs0 c s ts, k_configure r a = Some (cs0, c, s) -> no_swap ts ->
  (forall b j lo hi, r = Some b -> r_limits b j = Some (lo, hi) -> lo <= hi) -> kw_play c ts (kw_begin cs0 s) <> None.
Proof. exact defined_together. Qed.
Print Assumptions C148_defined_partial.
Example C148_instant_example : no_swap ((going ++ [TThread 0; TThread 0]) ++ TKey enter env :: late) /\
  run_at_once cfg_stream ((going ++ [TThread 0; TThread 0]) ++ TKey enter env :: late) (kw_begin [KStop] (st_stream TCP_FRAME)) (KPose delta_A).
Proof. exact late_example. Qed.

(** with the key that swaps the frames a null trajectory is used, or a pose of the base frame is sent when the controller has already been told
    to take poses as displacements of the tool *)
Theorem C148_undefined_refuted : exists a cs0 c s ts, k_configure None (Some a) = Some (cs0, c, s) /\ kw_play c ts (kw_begin cs0 s) = None.
Proof. exact line_missing_refuted. Qed.
Print Assumptions C148_undefined_refuted.
Theorem C148_frame_refuted : exists a cs0 c s ts w l e x, k_configure None (Some a) = Some (cs0, c, s) /\ kw_play c ts (kw_begin cs0 s) = Some w /\
  In (TKey "a"%char e) ts /\ e_stat e = Some x /\ (forall k e', In (TKey k e') ts -> k = "a"%char \/ k = "m"%char) /\
  kw_sent w = l ++ [(false, KFrame TCP_FRAME); (true, KPose x)] /\ nth 0 x 0 = 1.
Proof. exact frame_refuted. Qed.
Print Assumptions C148_frame_refuted.
