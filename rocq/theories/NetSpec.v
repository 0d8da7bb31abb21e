(** What the properties of the controller used through the network talk about. *)
From Coq Require Import Reals ZArith List Bool.
From Verif Require Import Kdl Vocab Bcc BccSpec BccLineSpec Net.
From Verif Require Rpc RpcSpec.
Import ListNotations.
Open Scope R_scope.

(** the arguments can be sent *)
Definition can_be_sent (a : action) : Prop := match a with Method r => RpcSpec.expressible r | Cycle => True end.
Definition sendable (h : list (action * list event * Rpc.reply)) : Prop := Forall (fun e => can_be_sent (fst (fst e))) h.
(** the calls issued by the controller *)
Definition calls {A B} (h : list (A * list event * B)) : list event := concat (map (fun e => snd (fst e)) h).
(** the tool set last through the client, none at first *)
Fixpoint tool_set (t : frame) (h : list (action * list event * Rpc.reply)) : frame :=
  match h with
  | [] => t
  | (Method (Rpc.RTool x), _, _) :: h' => tool_set (pose_at x 0) h'
  | _ :: h' => tool_set t h'
  end.
(** tools are described by six numbers *)
Definition six_numbers (h : list (action * list event * Rpc.reply)) : Prop :=
  Forall (fun e => match fst (fst e) with Method (Rpc.RTool x) => List.length x = 6%nat | _ => True end) h.
