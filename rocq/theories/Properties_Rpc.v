(** Properties of the Cartesian control client and server (C39-C43). *)
From Coq Require Import Reals ZArith List Bool Lia Lra.
From Verif Require Import Kdl KdlRot KinRep KinRepSpec Vocab Rpc RpcSpec RpcFacts.
Import ListNotations.
Open Scope R_scope.
Local Notation S := Datatypes.S.

(** C39: a method called on the client is the method invoked on the controller. *)
Theorem C39_same_call_partial : forall C (c : C) base behave r, answered r -> expressible r -> gives r (behave c r) ->
  remote_call (respond (At c) plain base) behave r = Some ([(c, r)], behave c r).
Proof. exact @remote_same. Qed.
Print Assumptions C39_same_call_partial.
Example C39_same_call_example :
  remote_call (respond (At tt) plain (fun b => b)) (fun _ _ => Nums [1; 2]) (RInv [3; 4; 5; 0; 0; 0]) = Some ([(tt, RInv [3; 4; 5; 0; 0; 0])], Nums [1; 2]) /\
  expressible (RSets [(VOCAB_CC_CONFIG_GAIN, 1 / 2); (VOCAB_CC_CONFIG_FRAME, IZR VOCAB_CC_TWIST)]).
Proof.
  split; [reflexivity|]. split; [discriminate|]. split.
  - repeat constructor; cbn; intuition; discriminate.
  - repeat constructor; cbn.
    + intros [X|X]; discriminate X.
    + intros _. eexists. split; [reflexivity|]. vm_compute. split; discriminate.
Qed.
Theorem C39_same_streaming : forall C (c : C) r, ~ answered r -> expressible r ->
  exists b, client_send r = Some b /\ onRead (At c) b = Some (c, r).
Proof. exact @streamed_same. Qed.
Print Assumptions C39_same_streaming.
Example C39_same_streaming_example : ~ answered (RTwist [1; 0; 0; 0; 0; 0]) /\ expressible (RTwist [1; 0; 0; 0; 0; 0]).
Proof. split; [exact (fun X => X) | discriminate]. Qed.
(** it is false of empty vectors and maps, of the parameter group read as a parameter, and
    of vocabulary-valued parameters that are no integers *)
Theorem C39_empty_refuted : exists (behave : Datatypes.unit -> request -> reply) r, answered r /\ gives r (behave tt r) /\ behave tt r = Okay /\
  forall base, remote_call (respond (At tt) plain base) behave r = Some ([], Failed).
Proof. exact empty_refuted. Qed.
Print Assumptions C39_empty_refuted.
Theorem C39_group_refuted : exists (behave : Datatypes.unit -> request -> reply) r, answered r /\ gives r (behave tt r) /\ behave tt r = Failed /\
  forall base, remote_call (respond (At tt) plain base) behave r = Some ([(tt, RGets)], Val 0).
Proof. exact group_refuted. Qed.
Print Assumptions C39_group_refuted.
Theorem C39_truncated_refuted : exists (behave : Datatypes.unit -> request -> reply) k v w, v <> w /\ (forall q, behave tt q = Okay) /\
  forall base, remote_call (respond (At tt) plain base) behave (RSet k v) = Some ([(tt, RSet k w)], Okay).
Proof. exact truncated_refuted. Qed.
Print Assumptions C39_truncated_refuted.

(** C40: no method ever reports that its request was not delivered; all but stat report success. *)
Theorem C40_lost_refuted : exists r, answered r /\ lost_call r = Some Okay.
Proof. exact lost_refuted. Qed.
Print Assumptions C40_lost_refuted.
Theorem C40_lost_stat_refuted : exists r b, client_send r = Some b /\ lost_call r = None.
Proof. exact lost_stat_refuted. Qed.
Print Assumptions C40_lost_stat_refuted.
Theorem C40_never_reported : forall r b, client_send r = Some b -> r <> RStat -> exists a, lost_call r = Some a /\ a <> Failed.
Proof. exact lost_succeeds. Qed.
Print Assumptions C40_never_reported.
Example C40_lost_example : lost_call (RMovl [1; 2; 3; 0; 0; 0]) = Some Okay /\ lost_call RStop = Some Okay /\ lost_call (RInv [1]) = Some (Nums []).
Proof. repeat split. Qed.
(** a failure announced by the server is reported *)
Theorem C40_server_failure_partial : forall r a, client_receive r fail = Some a -> a = Failed.
Proof. exact server_failure. Qed.
Print Assumptions C40_server_failure_partial.
Example C40_server_failure_example : client_receive RStat fail = Some Failed.
Proof. reflexivity. Qed.

(** C41: the streamed state is used exactly while its last arrival is recent. *)
Theorem C41_fresh : forall h at_ x v t s now timeout rpc, received (h ++ [(at_, (x, v, t))]) fk_new = Some s ->
  (now - at_ <= timeout -> stat true now timeout s rpc = Some (Stated x v t)) /\
  (timeout < now - at_ -> stat true now timeout s rpc = client_stat rpc).
Proof. exact stat_fresh. Qed.
Print Assumptions C41_fresh.
Example C41_fresh_example : received ([(100, ([1], 7%Z, 99))] ++ [(101, ([2; 3], 8%Z, 100))]) fk_new = Some (Fk 101 8 100 [2; 3]).
Proof. reflexivity. Qed.
Theorem C41_no_arrival_partial : forall now timeout s rpc, received [] fk_new = Some s -> timeout < now -> stat true now timeout s rpc = client_stat rpc.
Proof. exact stat_none. Qed.
Print Assumptions C41_no_arrival_partial.
Example C41_no_arrival_example : received [] fk_new = Some fk_new /\ 1 / 2 < 1000.
Proof. split; [reflexivity | lra]. Qed.
Theorem C41_no_stream : forall now timeout s rpc, stat false now timeout s rpc = client_stat rpc.
Proof. exact stat_no_stream. Qed.
Print Assumptions C41_no_stream.
(** an RPC answer is understood as sent *)
Theorem C41_answer : forall x v t, v <> VOCAB_CC_FAILED -> client_stat (state_message x v t) = Some (Stated x v t).
Proof. exact message_stat. Qed.
Print Assumptions C41_answer.
(** while the clock itself is within the timeout (simulated time), data never received is returned *)
Theorem C41_no_arrival_refuted : exists now timeout s, 0 < timeout /\ received [] fk_new = Some s /\
  forall rpc, stat true now timeout s rpc = Some (Stated [] 0 0).
Proof. exact stat_none_refuted. Qed.
Print Assumptions C41_no_arrival_refuted.

(** C42: whom the server asks, after any history of attach and detach. *)
Theorem C42_last_attached_partial : forall C (sub : option C) period coord angle units l base b, angle <> Unknown -> units <> Unknown ->
  let s := life (snd (open sub period coord angle units)) l in
  (forall c, asked (respond (rpc_handle s) plain base b) = Some c -> last_attached sub l = Some c) /\
  (forall h t c, transform_handle s = Some h -> asked (respond h t base b) = Some c -> last_attached sub l = Some c) /\
  (forall c q, onRead (stream_handle s) b = Some (c, q) -> last_attached sub l = Some c) /\
  (forall c q k, run s = Some (c, q, k) -> attached_now sub l = Some c /\ q = RStat).
Proof. exact @served_by_last. Qed.
Print Assumptions C42_last_attached_partial.
Example C42_last_attached_example :
  run (life (snd (open None 50 Absent Known Absent)) [Attach (Controller 1%nat)]) <> None /\
  run (life (snd (open None 50 Absent Known Absent)) [Attach (Controller 1%nat); Detach]) = None /\
  asked (respond (rpc_handle (life (snd (open (Some 1%nat) 50 Absent Known Absent)) [Detach; Attach (Controller 2%nat)])) plain (fun b => b) [VVocab VOCAB_CC_STOP]) = Some 2%nat.
Proof. repeat split. discriminate. Qed.
Theorem C42_before_attach_partial : forall C period coord angle units (l : list (life_op C)) base b, angle <> Unknown -> units <> Unknown ->
  last_attached None l = None ->
  let s := life (snd (open None period coord angle units)) l in
  onRead (stream_handle s) b = None /\ run s = None /\ respond (rpc_handle s) plain base b = Undefined.
Proof. exact @quiet_before. Qed.
Print Assumptions C42_before_attach_partial.
Example C42_before_attach_example : last_attached None [Attach (@Other nat); Attach Invalid; Detach] = None.
Proof. reflexivity. Qed.
(** requests still reach the controller after detach *)
Theorem C42_detach_refuted : exists (l : list (life_op nat)) c b, attached_now None l = None /\
  forall base, asked (respond (rpc_handle (life (snd (open None 50 Absent Absent Absent)) l)) plain base b) = Some c.
Proof. exact detached_refuted. Qed.
Print Assumptions C42_detach_refuted.
Theorem C42_detach_streaming_refuted : exists (l : list (life_op nat)) c b r, attached_now None l = None /\
  onRead (stream_handle (life (snd (open None 50 Absent Absent Absent)) l)) b = Some (c, r).
Proof. exact detached_stream_refuted. Qed.
Print Assumptions C42_detach_streaming_refuted.
(** before attach, a request reads a pointer that was never set *)
Theorem C42_before_attach_refuted : exists b, forall base,
  respond (rpc_handle (snd (open (@None nat) 50 Absent Absent Absent))) plain base b = Undefined.
Proof. exact unattached_refuted. Qed.
Print Assumptions C42_before_attach_refuted.
(** with an unknown representation, open succeeds and leaves the pointer unset *)
Theorem C42_unknown_refuted : exists coord angle units period, fst (open (Some 1%nat) period coord angle units) = true /\
  forall base b, respond (rpc_handle (snd (open (Some 1%nat) period coord angle units))) plain base b = Undefined.
Proof. exact unknown_refuted. Qed.
Print Assumptions C42_unknown_refuted.

(** C43: the transform port. *)
Theorem C43_pose_converted : forall C (d : C) base c o u p lp lo rm cmd b, pose_command cmd -> client_send (cmd (lp ++ lo)) = Some b ->
  pose_supported c o = true -> means_pos c lp p -> means o u p lo rm -> regular_log rm \/ o = AXIS_ANGLE_SCALED -> lp ++ lo <> [] ->
  exists r k, respond (At d) (transform c o u) base b = Ask d (cmd (vlist p ++ vlist r)) k /\ rot_of r = rm.
Proof. exact @pose_converted. Qed.
Print Assumptions C43_pose_converted.
Example C43_pose_converted_example : means_pos CARTESIAN [1; 2; 3] (V 1 2 3) /\ means AXIS_ANGLE_SCALED DEGREES (V 1 2 3) [90; 0; 0] (rot_of (V (90 * PI / 180) (0 * PI / 180) (0 * PI / 180))).
Proof. split; reflexivity. Qed.
Theorem C43_pose_refused : forall C (d : C) base c o u x cmd b, pose_command cmd -> client_send (cmd x) = Some b ->
  pose_supported c o = false \/ (length x < expected_size c o)%nat -> respond (At d) (transform c o u) base b = Reply fail.
Proof. exact @pose_refused. Qed.
Print Assumptions C43_pose_refused.
Example C43_pose_refused_example : pose_supported CYLINDRICAL O_RPY = false /\ (length [1; 2; 3; 4; 5; 6] < expected_size CARTESIAN AXIS_ANGLE)%nat.
Proof. split; [reflexivity | cbn; lia]. Qed.
Theorem C43_state_converted : forall C (d : C) base c o u p r v t, writable_pos c p -> writable o p r ->
  exists k lp lo, respond (At d) (transform c o u) base [VVocab VOCAB_CC_STAT] = Ask d RStat k /\
    k (Stated (vlist p ++ vlist r) v t) = Some (state_message (lp ++ lo) v t) /\ means_pos c lp p /\ means o u p lo (rot_of r).
Proof. exact @state_converted. Qed.
Print Assumptions C43_state_converted.
Example C43_state_converted_example : writable_pos CARTESIAN (V 1 2 3) /\ writable AXIS_ANGLE (V 1 2 3) (V 1 0 0).
Proof. split; exact I. Qed.
(** torques are scaled as if they were angles, and a second pose is dropped *)
Theorem C43_torque_refuted : exists c o u fd fd' b, client_send (RForc fd) = Some b /\ fd <> fd' /\
  forall C (d : C) base, exists k, respond (At d) (transform c o u) base b = Ask d (RForc fd') k.
Proof. exact torque_refuted. Qed.
Print Assumptions C43_torque_refuted.
Theorem C43_second_pose_refuted : exists c o u x y b, client_send (RMovj (x ++ y)) = Some b /\ length y = 6%nat /\
  forall C (d : C) base, exists k, respond (At d) (transform c o u) base b = Ask d (RMovj x) k.
Proof. exact second_refuted. Qed.
Print Assumptions C43_second_pose_refuted.
