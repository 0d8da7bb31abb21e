(** Specification vocabulary of the client and the server. *)
From Coq Require Import Reals ZArith List Bool.
From Verif Require Import Kdl Vocab Rpc.
From Verif Require KinRep KinRepSpec.
Import ListNotations.
Open Scope R_scope.
Local Notation S := Datatypes.S.

(** A call of the method [r] on the client, the server serving it with [serve] and the
    controllers behaving as [behave]: the methods invoked on controllers, and what the caller
    gets.  [None]: undefined behaviour or an exception. *)
Definition remote_call {C} (serve : bottle -> served C) (behave : C -> request -> reply) (r : request) : option (list (C * request) * reply) :=
  match client_send r with
  | None => None
  | Some b =>
      match serve b with
      | Undefined => None
      | Reply a => option_map (fun x => ([], x)) (client_receive r a)
      | Ask c q k =>
          match k (behave c q) with
          | None => None
          | Some a => option_map (fun x => ([(c, q)], x)) (client_receive r a)
          end
      end
  end.
(** the request was not delivered: nothing is received *)
Definition lost_call (r : request) : option reply := match client_send r with None => None | Some _ => client_receive r [] end.

(** methods answered by the controller (the others are streaming commands) *)
Definition answered (r : request) : Prop := match r with RPose _ | RTwist _ | RWrench _ => False | _ => True end.
(** a parameter that can be transmitted: the two vocabulary-valued ones hold integers *)
Definition transmissible (k : Z) (v : R) : Prop :=
  k = VOCAB_CC_CONFIG_FRAME \/ k = VOCAB_CC_CONFIG_STREAMING_CMD ->
  exists z, v = IZR z /\ (-2147483648 <= z <= 2147483647)%Z.
Definition transmissible_map (m : list (Z * R)) : Prop :=
  NoDup (map fst m) /\ Forall (fun e => transmissible (fst e) (snd e)) m.
(** arguments that the protocol can express *)
Definition expressible (r : request) : Prop :=
  match r with
  | RInv x | RMovj x | RRelj x | RMovl x | RMovv x | RForc x | RTool x | RPose x | RTwist x | RWrench x => x <> []
  | RSet k v => k <> VOCAB_CC_CONFIG_PARAMS /\ transmissible k v
  | RGet k => k <> VOCAB_CC_CONFIG_PARAMS
  | RSets m => m <> [] /\ transmissible_map m
  | _ => True
  end.
(** what a controller can give back from a method *)
Definition gives (r : request) (a : reply) : Prop :=
  match r, a with
  | _, Failed => True
  | RStat, Stated _ v _ => v <> VOCAB_CC_FAILED
  | RInv _, Nums _ => True
  | RGet k, Val v => transmissible k v /\ (k = VOCAB_CC_CONFIG_FRAME \/ k = VOCAB_CC_CONFIG_STREAMING_CMD -> v <> IZR VOCAB_CC_FAILED)
  | RGets, Params m => transmissible_map m
  | (RStat | RInv _ | RGet _ | RGets), _ => False
  | _, Okay => True
  | _, _ => False
  end.

(** the states received so far: local time of arrival and the message the server sent *)
Definition state_message (x : list R) (state : Z) (time : R) : bottle := VVocab state :: map VFloat x ++ [VFloat time].
Fixpoint received (h : list (R * (list R * Z * R))) (s : fk) : option fk :=
  match h with
  | [] => Some s
  | (now, (x, v, time)) :: h' => match fk_read now (state_message x v time) s with Some s' => received h' s' | None => None end
  end.

(** lives of the server *)
Inductive life_op (C : Type) := Attach (d : given C) | Detach.
Arguments Attach {C}. Arguments Detach {C}.
Definition life_step {C} (s : server C) (o : life_op C) : server C := match o with Attach d => snd (attach d s) | Detach => snd (detach s) end.
Definition life {C} (s : server C) (l : list (life_op C)) : server C := fold_left life_step l s.
(** the controller the server was last attached to, and the one it is attached to now *)
Fixpoint last_attached {C} (before : option C) (l : list (life_op C)) : option C :=
  match l with
  | [] => before
  | Attach (Controller c) :: l' => last_attached (Some c) l'
  | _ :: l' => last_attached before l'
  end.
Fixpoint attached_now {C} (before : option C) (l : list (life_op C)) : option C :=
  match l with
  | [] => before
  | Attach (Controller c) :: l' => attached_now (Some c) l'
  | Attach Invalid :: l' => attached_now before l'
  | Attach Other :: l' | Detach :: l' => attached_now None l'
  end.
(** the controller a request was passed on to *)
Definition asked {C} (x : served C) : option C := match x with Ask c _ _ => Some c | _ => None end.

(** commands whose argument is a pose *)
Inductive pose_command : (list R -> request) -> Prop :=
| pc_inv : pose_command RInv | pc_movj : pose_command RMovj | pc_relj : pose_command RRelj
| pc_movl : pose_command RMovl | pc_tool : pose_command RTool.
