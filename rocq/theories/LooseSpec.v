(** What the claims about streamed commands that take their time say.  Nothing here models code. *)
From Coq Require Import Reals ZArith List Bool.
From Verif Require Import Kdl Vocab Bcc BccSpec Net NetSpec Loose.
From Verif Require Rpc RpcSpec Feed.
Import ListNotations.
Open Scope R_scope.

Definition entries := list (loose_action * list event * Rpc.reply).
(** the arguments can be sent *)
Definition loose_sendable (h : entries) : Prop :=
  Forall (fun e => match fst (fst e) with Do a => can_be_sent a | _ => True end) h.
(** the same session on the controller itself, a streamed command being called when its message arrives; [w]: those on their way at first *)
Fixpoint direct (w : list Rpc.request) (h : entries) : list (action * list event * Rpc.reply) :=
  match h with
  | [] => []
  | (Do (Method r), tr, x) :: h' => if streams r then direct (w ++ [r]) h' else (Method r, tr, x) :: direct w h'
  | (Do Cycle, tr, x) :: h' => (Cycle, tr, x) :: direct w h'
  | (Arrives k, tr, x) :: h' =>
      match nth_error w k with Some r => (Method r, tr, x) :: direct (Feed.remove_at k w) h' | None => direct w h' end
  | (Lost k, _, _) :: h' => direct (Feed.remove_at k w) h'
  end.
(** the streamed commands sent by the client, in order *)
Fixpoint sent (h : entries) : list Rpc.request :=
  match h with
  | [] => []
  | (Do (Method r), _, _) :: h' => if streams r then r :: sent h' else sent h'
  | _ :: h' => sent h'
  end.
(** the streamed commands among the calls made on the controller, in order *)
Fixpoint carried_out (h : list (action * list event * Rpc.reply)) : list Rpc.request :=
  match h with
  | [] => []
  | (Method r, _, _) :: h' => if streams r then r :: carried_out h' else carried_out h'
  | _ :: h' => carried_out h'
  end.
(** the messages that arrive do so in the order in which they were sent *)
Definition loose_in_order (h : entries) : Prop := forall k tr x, In (Arrives k, tr, x) h -> k = O.
Definition none_lost (h : entries) : Prop := forall k tr x, ~ In (Lost k, tr, x) h.
(** the first list is the second without some of its elements *)
Inductive part_of {A} : list A -> list A -> Prop :=
| part_nil : part_of [] []
| part_keep x l m : part_of l m -> part_of (x :: l) (x :: m)
| part_skip x l m : part_of l m -> part_of l (x :: m).
(** the calls issued by the controller *)
Definition loose_calls (h : entries) : list event := concat (map (fun e => snd (fst e)) h).
(** nothing that starts a movement or selects what to stream; streamed commands may still be sent *)
Definition asks_nothing (a : loose_action) : Prop :=
  match a with
  | Do (Method (Rpc.RStat | Rpc.RInv _ | Rpc.RStop | Rpc.RWait _ | Rpc.RTool _ | Rpc.RAct _ | Rpc.RPose _ | Rpc.RTwist _ | Rpc.RWrench _ | Rpc.RGet _ | Rpc.RGets)) => True
  | Do (Method _) => False
  | _ => True
  end.
Definition at_ease (h : entries) : Prop := Forall (fun e => asks_nothing (fst (fst e))) h.
