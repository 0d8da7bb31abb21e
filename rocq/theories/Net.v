(** The Cartesian controller behind the server, used through its ports: the RPC port, the port for
    streamed commands and the transform port. *)
From Coq Require Import Reals ZArith List Bool.
From Verif Require Import Kdl Vocab Bcc.
From Verif Require Rpc KinRep.
Import ListNotations.
Open Scope R_scope.

(** BasicCartesianControl/ICartesianControlImpl.cpp 37-702: the methods of the controller and what they give back;
    [fuel] bounds the loops of movl and wait.  getParameters is given an empty map, as the server does (RpcResponder.cpp 472-474). *)
Definition yes_no (p : prog bool) : prog Rpc.reply := let* b := p in Ret (if b then Rpc.Okay else Rpc.Failed).
Definition method (c : cfg) (fuel : nat) (r : Rpc.request) : prog Rpc.reply :=
  match r with
  | Rpc.RStat => let* o := stat c true in Ret (match o with Some (x, v, t) => Rpc.Stated x v t | None => Rpc.Failed end)
  | Rpc.RInv x => let* o := inv c x in Ret (match o with Some q => Rpc.Nums q | None => Rpc.Failed end)
  | Rpc.RMovj x => yes_no (movj c x)
  | Rpc.RRelj x => yes_no (relj c x)
  | Rpc.RMovl x => yes_no (movl c fuel x)
  | Rpc.RMovv x => yes_no (movv c x)
  | Rpc.RGcmp => yes_no (gcmp c)
  | Rpc.RForc f => yes_no (forc c f)
  | Rpc.RStop => yes_no (stopControl c)
  | Rpc.RWait t => yes_no (wait c fuel t)
  | Rpc.RTool x => yes_no (tool x)
  | Rpc.RAct k => yes_no (act k)
  | Rpc.RPose x => pose c x ;; Ret Rpc.Okay
  | Rpc.RTwist x => twist c x ;; Ret Rpc.Okay
  | Rpc.RWrench w => wrench c w ;; Ret Rpc.Okay
  | Rpc.RSet k v => yes_no (setParameter c k v)
  | Rpc.RGet k => let* o := getParameter k in Ret (match o with Some v => Rpc.Val v | None => Rpc.Failed end)
  | Rpc.RSets m => yes_no (setParameters c m)
  | Rpc.RGets => let* m := getParameters [] in Ret (Rpc.Params m)
  end.

(** pose, twist and wrench are streamed (CartesianControlClient/ICartesianControlImpl.cpp 279-296), the others are requests *)
Definition streams (r : Rpc.request) : bool := match r with Rpc.RPose _ | Rpc.RTwist _ | Rpc.RWrench _ => true | _ => false end.

(** CartesianControlServer/RpcResponder.cpp 52-509: a message sent to the RPC port, or to the transform port with its
    conversion [conv]; the calls issued by the controller attached, and the answer.  [base]: the answers of YARP's DeviceResponder. *)
Inductive answered (c : cfg) (base : list Rpc.value -> list Rpc.value) (conv : Rpc.conversion) : st -> list Rpc.value -> list event -> list Rpc.value -> st -> Prop :=
| passed_on b q k fuel s tr a s' b' : Rpc.respond (Rpc.At tt) conv base b = Rpc.Ask tt q k ->
    exec (method c fuel q) s tr (Done a) s' -> k a = Some b' -> answered c base conv s b tr b' s'
| by_itself b b' s : Rpc.respond (Rpc.At tt) conv base b = Rpc.Reply b' -> answered c base conv s b [] b' s.
(** CartesianControlServer/StreamResponder.cpp 15-62: a message sent to the command port *)
Inductive taken (c : cfg) : st -> list Rpc.value -> list event -> st -> Prop :=
| obeyed b q fuel s tr a s' : Rpc.onRead (Rpc.At tt) b = Some (tt, q) -> exec (method c fuel q) s tr (Done a) s' -> taken c s b tr s'
| ignored b s : Rpc.onRead (Rpc.At tt : Rpc.handle Datatypes.unit) b = None -> taken c s b [] s.

(** what can be done: a method called on the client, or on the controller itself; a cycle of the controller *)
Inductive action := Method (r : Rpc.request) | Cycle.
(** CartesianControlClient, CartesianControlServer and the controller it has been attached to, one action: the calls
    issued by the controller and what the caller gets.  A streamed command gives nothing back to its caller, written as success.
    Simplified: the streamed commands arrive, in the order of the calls (YARP may drop them when others are waiting);
    a method whose message cannot be delivered is the matter of C40; the client asks for the state (the state it receives
    periodically, if so configured, is the matter of C41). *)
Inductive remotely (c : cfg) (base : list Rpc.value -> list Rpc.value) : st -> action -> list event -> Rpc.reply -> st -> Prop :=
| by_rpc r b s tr s' b' x : Rpc.client_send r = Some b -> streams r = false -> answered c base Rpc.plain s b tr b' s' ->
    Rpc.client_receive r b' = Some x -> remotely c base s (Method r) tr x s'
| by_stream r b s tr s' : Rpc.client_send r = Some b -> streams r = true -> taken c s b tr s' -> remotely c base s (Method r) tr Rpc.Okay s'
| meanwhile s tr s' : exec (run c) s tr (Done tt) s' -> remotely c base s Cycle tr Rpc.Okay s'.

(** the same, called on the controller *)
Inductive locally (c : cfg) : st -> action -> list event -> Rpc.reply -> st -> Prop :=
| by_call r fuel s tr a s' : exec (method c fuel r) s tr (Done a) s' -> locally c s (Method r) tr a s'
| in_between s tr s' : exec (run c) s tr (Done tt) s' -> locally c s Cycle tr Rpc.Okay s'.

(** any message whatsoever, sent by anybody to one of the ports; or none, and the controller goes through a cycle *)
Inductive message := ToRpc (b : list Rpc.value) | ToTransform (b : list Rpc.value) | ToCommand (b : list Rpc.value) | Nothing.
Inductive handled (c : cfg) (base : list Rpc.value -> list Rpc.value) (conv : Rpc.conversion) : st -> message -> list event -> list Rpc.value -> st -> Prop :=
| at_rpc s b tr b' s' : answered c base Rpc.plain s b tr b' s' -> handled c base conv s (ToRpc b) tr b' s'
| at_transform s b tr b' s' : answered c base conv s b tr b' s' -> handled c base conv s (ToTransform b) tr b' s'
| at_command s b tr s' : taken c s b tr s' -> handled c base conv s (ToCommand b) tr [] s'
| at_none s tr s' : exec (run c) s tr (Done tt) s' -> handled c base conv s Nothing tr [] s'.

(** one after another: what was asked, the calls issued by the controller and what was given back *)
Inductive session {A B} (P : st -> A -> list event -> B -> st -> Prop) : st -> list (A * list event * B) -> st -> Prop :=
| session_nil s : session P s [] s
| session_cons s s1 s2 a tr x h : P s a tr x s1 -> session P s1 h s2 -> session P s ((a, tr, x) :: h) s2.
