(** The controller behind the server, used through the client (Net.v), when the messages of the streamed commands take their time:
    the command port is connected with "udp" (CartesianControlClient/DeviceDriverImpl.cpp 40), so one may be lost, or arrive after one that
    was sent later.  Messages that arrive twice, in pieces or damaged are left out. *)
From Coq Require Import Reals ZArith List Bool.
From Verif Require Import Kdl Vocab Bcc Net.
From Verif Require Rpc Feed.
Import ListNotations.
Open Scope R_scope.

(** a method called on the client, or a cycle of the controller; of the messages on their way, that in the place [k] arrives or is lost *)
Inductive loose_action := Do (a : action) | Arrives (k : nat) | Lost (k : nat).

(** CartesianControlClient, the messages of its command port that are on their way, CartesianControlServer and its controller: one action, the
    calls issued by the controller and what the caller gets.  A call that is streamed gives nothing back, written as success.
    CartesianControlClient/ICartesianControlImpl.cpp 106-119 (handleStreamingConsumerCmd) and 279-296; CartesianControlServer/StreamResponder.cpp 15-62. *)
Inductive loosely (c : cfg) (base : list Rpc.value -> list Rpc.value) :
  st -> list (list Rpc.value) -> loose_action -> list event -> Rpc.reply -> st -> list (list Rpc.value) -> Prop :=
| loose_send r b s w : Rpc.client_send r = Some b -> streams r = true -> loosely c base s w (Do (Method r)) [] Rpc.Okay s (w ++ [b])
| loose_ask r tr x s s' w : streams r = false -> remotely c base s (Method r) tr x s' -> loosely c base s w (Do (Method r)) tr x s' w
| loose_cycle tr x s s' w : remotely c base s Cycle tr x s' -> loosely c base s w (Do Cycle) tr x s' w
| loose_arrive k b tr s s' w : nth_error w k = Some b -> taken c s b tr s' -> loosely c base s w (Arrives k) tr Rpc.Okay s' (Feed.remove_at k w)
| loose_lose k s w : loosely c base s w (Lost k) [] Rpc.Okay s (Feed.remove_at k w).

(** one after another *)
Inductive loose_session (c : cfg) (base : list Rpc.value -> list Rpc.value) :
  st -> list (list Rpc.value) -> list (loose_action * list event * Rpc.reply) -> st -> list (list Rpc.value) -> Prop :=
| loose_nil s w : loose_session c base s w [] s w
| loose_cons s w a tr x s1 w1 h s2 w2 : loosely c base s w a tr x s1 w1 -> loose_session c base s1 w1 h s2 w2 ->
    loose_session c base s w ((a, tr, x) :: h) s2 w2.
