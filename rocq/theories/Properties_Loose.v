(** The properties about streamed commands that take their time.  Nothing but their theorems. *)
From Coq Require Import Reals ZArith List Bool Permutation.
From Verif Require Import Kdl Vocab Bcc BccSpec BccFacts2 BccExamples SysExamples3 Net NetSpec Loose LooseSpec LooseFacts LooseExamples.
From Verif Require Rpc RpcSpec.
Import ListNotations.
Open Scope R_scope.

(** C155: whatever is lost or overtaken, from the moment it is opened the controller does what it would do, and answers what it would answer, if it were called directly,
    with the streamed commands that arrived, when they arrive. *)
Theorem C155_as_if : forall g dur cmc wp posd ff frame timed n refs user robot sj started c s base h s' w',
  open g dur cmc wp posd ff frame timed n refs user robot sj started = Some (c, s) -> loose_sendable h -> loose_session c base s [] h s' w' ->
  session (locally c) s (direct [] h) s'.
Proof. exact loose_transparent. Qed.
Print Assumptions C155_as_if.

(** C155: each command that was sent is carried out at most once, and none that was not sent. *)
Theorem C155_at_most_once : forall h, exists rest, Permutation (carried_out (direct [] h) ++ rest) (sent h).
Proof. exact at_most_once. Qed.
Print Assumptions C155_at_most_once.

(** C155: in the order in which they were sent, if the network keeps it. *)
Theorem C155_order_partial : forall h, loose_in_order h -> part_of (carried_out (direct [] h)) (sent h).
Proof. exact in_their_order. Qed.
Print Assumptions C155_order_partial.
(** C155: and all of them, if in addition nothing is lost or still on its way. *)
Theorem C155_all_partial : forall c base s h s', loose_session c base s [] h s' [] -> loose_sendable h -> loose_in_order h -> none_lost h ->
  carried_out (direct [] h) = sent h.
Proof. exact all_of_them. Qed.
Print Assumptions C155_all_partial.
Example C155_example : forall base, loose_sendable fine_day /\ loose_in_order fine_day /\ none_lost fine_day /\ loose_session rig base idle [] fine_day streaming []
  /\ sent fine_day = [Rpc.RTwist forward; Rpc.RTwist still].
Proof. exact fine. Qed.

(** C155: otherwise the robot can be left with a velocity that is not that of the last command sent, although all have arrived: the client asked for [x0], for which
    the solver gives no velocity, last, and the robot was told [v] last. *)
Theorem C155_last_refuted : exists g dur cmc wp posd ff frame timed n refs user robot sj started c s base h s' before pre q0 x0 x v,
  open g dur cmc wp posd ff frame timed n refs user robot sj started = Some (c, s) /\ loose_sendable h /\ none_lost h /\
  loose_session c base s [] h s' [] /\ sent h = before ++ [Rpc.RTwist x0] /\ motions (loose_calls h) = pre ++ [VelocityMove v] /\
  In (DiffInvKin q0 x0 BASE_FRAME, give [0]) (loose_calls h) /\ In (DiffInvKin q0 x BASE_FRAME, give v) (loose_calls h) /\ v <> [0].
Proof. exact overtaken_refuted. Qed.
Print Assumptions C155_last_refuted.

(** C156: once a stop has been answered, streamed commands do not move the robot, whether sent before or after, until a movement is asked for or a parameter is set. *)
Theorem C156_stopped : forall g dur cmc wp posd ff frame timed n refs user robot sj started c s base h1 tr x h2 s' w',
  open g dur cmc wp posd ff frame timed n refs user robot sj started = Some (c, s) ->
  loose_session c base s [] (h1 ++ (Do (Method Rpc.RStop), tr, x) :: h2) s' w' ->
  loose_sendable (h1 ++ (Do (Method Rpc.RStop), tr, x) :: h2) -> at_ease h2 -> motions (loose_calls h2) = [].
Proof. exact loose_stopped. Qed.
Print Assumptions C156_stopped.
Example C156_example : forall base, loose_session rig base idle [] (stop_day after_stop) (set_off streaming) [] /\ loose_sendable (stop_day after_stop) /\ at_ease after_stop.
Proof. exact stop_respected. Qed.

(** C156: a command sent before the stop can still move it, if its kind is selected again before it arrives. *)
Theorem C156_forgotten_refuted : exists g dur cmc wp posd ff frame timed n refs user robot sj started c s base h1 tr h2 s',
  open g dur cmc wp posd ff frame timed n refs user robot sj started = Some (c, s) /\
  loose_sendable (h1 ++ (Do (Method Rpc.RStop), tr, Rpc.Okay) :: h2) /\
  loose_session c base s [] (h1 ++ (Do (Method Rpc.RStop), tr, Rpc.Okay) :: h2) s' [] /\
  sent h2 = [] /\ Forall (fun e => asks_nothing (fst (fst e)) \/ exists k v, fst (fst e) = Do (Method (Rpc.RSet k v))) h2 /\ motions (loose_calls h2) <> [].
Proof. exact stop_refuted. Qed.
Print Assumptions C156_forgotten_refuted.
