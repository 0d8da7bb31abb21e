(** A client that reads the state of the controller from the stream of its server: CartesianControlServer/PeriodicThreadImpl.cpp,
    CartesianControlClient/FkStreamResponder.cpp and stat in its ICartesianControlImpl.cpp, over time.  The messages are those of Rpc.v.

    The port is connected with "udp" (CartesianControlClient/DeviceDriverImpl.cpp 60): a message may be lost, or arrive after one
    that was sent later.  Messages that arrive twice, in pieces or damaged are left out.  An RPC request is answered at once. *)
From Coq Require Import Reals List Bool ZArith.
From Verif Require Import Kdl Vocab Rpc.
Import ListNotations.
Open Scope R_scope.
Local Notation S := Datatypes.S.

(** what happens at an instant: the thread of the server runs; of the messages that are on their way, that in the place [k] arrives or is
    lost; the client calls stat *)
Inductive f_event := Publish | Arrive (k : nat) | Lose (k : nat) | AskStat.

(** [f_way]: the messages on their way, with the instant at which they were sent; [f_fk]: FkStreamResponder; [f_told]: the answers of
    stat so far, and when.  Not in the code: [f_took], how long the messages that arrived were on their way. *)
Record feed := Feed { f_way : list (R * bottle); f_fk : fk; f_told : list (R * option reply); f_took : list R }.
Definition f_start : feed := Feed [] fk_new [] [].

Fixpoint remove_at {A} (k : nat) (l : list A) : list A :=
  match l, k with
  | [], _ => []
  | _ :: l', O => l'
  | x :: l', S k' => x :: remove_at k' l'
  end.

Section Client.
(** what the controller answers to stat at each instant *)
Variable state_at : R -> reply.
(** the state port of the server exists, and the client has connected to it; fkStreamTimeoutSecs *)
Variable stream : bool.
Variable timeout : R.

(** CartesianControlServer/PeriodicThreadImpl.cpp 9-34: run *)
Definition publish (now : R) : option bottle :=
  match run (Server (Some tt) (At tt) None (At tt) true true) with
  | Some (_, _, k) => k (state_at now)
  | None => None
  end.
(** CartesianControlServer/RpcResponder.cpp 209-239: handleStatMsg *)
Definition rpc_stat (now : R) : option bottle :=
  match handleStat tt plain [VVocab VOCAB_CC_STAT] with Ask _ _ k => k (state_at now) | _ => None end.

(** [None]: undefined *)
Definition f_step (now : R) (e : f_event) (w : feed) : option feed :=
  match e with
  | Publish =>
      if stream then
        match publish now with
        | Some b => Some (Feed (f_way w ++ [(now, b)]) (f_fk w) (f_told w) (f_took w))
        | None => Some w
        end
      else Some w
  | Lose k => Some (Feed (remove_at k (f_way w)) (f_fk w) (f_told w) (f_took w))
  | Arrive k =>
      match nth_error (f_way w) k with
      | Some (sent, b) =>
          match fk_read now b (f_fk w) with
          | Some s => Some (Feed (remove_at k (f_way w)) s (f_told w) (f_took w ++ [now - sent]))
          | None => None
          end
      | None => Some w
      end
  | AskStat =>
      match rpc_stat now with
      | Some b => Some (Feed (f_way w) (f_fk w) (f_told w ++ [(now, stat stream now timeout (f_fk w) b)]) (f_took w))
      | None => None
      end
  end.
Fixpoint f_play (es : list (R * f_event)) (w : feed) : option feed :=
  match es with
  | [] => Some w
  | (now, e) :: es' => match f_step now e w with Some w' => f_play es' w' | None => None end
  end.
End Client.
