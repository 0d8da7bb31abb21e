(** Model of CartesianControlServer and CartesianControlClient (YarpPlugins).

    The controller behind the server is the environment: a request either reaches it
    ([Ask]) or is answered by the server alone.  YARP's bottles are lists of values of the
    three kinds used here.  Trusted facts about YARP (external, from memory): a bottle
    arrives as it was sent; a missing element reads as 0 and is neither a vocab nor a list;
    DeviceResponder::read ignores the boolean result of [respond] and sends the reply;
    RpcClient::write leaves the reply empty when the request cannot be delivered.
    Simplified: reading a number as a vocab or a list as either gives 0 (this matters for
    malformed requests only); logging and the help texts (RpcResponder.cpp 98-205) are left
    out. *)
From Coq Require Import Reals ZArith List Bool.
From Verif Require Import Kdl Vocab.
From Verif Require Bcc KinRep.
Import ListNotations.
Open Scope R_scope.
Local Notation S := Datatypes.S.

(** ** Bottles *)
Inductive value := VVocab (z : Z) | VFloat (x : R) | VList (l : list value).
Notation bottle := (list value).
Definition get (b : bottle) (i : nat) : option value := nth_error b i.
Definition isVocab32 (v : option value) : bool := match v with Some (VVocab _) => true | _ => false end.
Definition asVocab32 (v : option value) : Z := match v with Some (VVocab z) => z | _ => 0%Z end.
Definition asFloat64 (v : option value) : R := match v with Some (VFloat x) => x | _ => 0 end.
Definition asList (v : option value) : option bottle := match v with Some (VList l) => Some l | _ => None end.

(** ** The controller's interface (ICartesianControl.h 145-431) *)
Inductive request :=
| RStat | RInv (xd : list R) | RMovj (xd : list R) | RRelj (xd : list R) | RMovl (xd : list R) | RMovv (xdotd : list R)
| RGcmp | RForc (fd : list R) | RStop | RWait (timeout : R) | RTool (x : list R) | RAct (action : Z)
| RPose (x : list R) | RTwist (xdot : list R) | RWrench (w : list R)
| RSet (k : Z) (v : R) | RGet (k : Z) | RSets (params : list (Z * R)) | RGets.
(** what a method gives back: failure, or success with its outputs *)
Inductive reply :=
| Failed | Okay | Stated (x : list R) (state : Z) (timestamp : R) | Nums (q : list R) | Val (v : R) | Params (m : list (Z * R)).

(** ** RpcResponder.cpp *)

(** 25-47, also ICartesianControlImpl.cpp (client) 21-43: addValue and asValue.  [None]: the
    conversion of the number to an integer is undefined. *)
Definition is_vocab_param (k : Z) : bool := Z.eqb k VOCAB_CC_CONFIG_FRAME || Z.eqb k VOCAB_CC_CONFIG_STREAMING_CMD.
Definition mkValue (k : Z) (v : R) : option value :=
  if is_vocab_param k then option_map VVocab (Bcc.to_int v) else Some (VFloat v).
Definition asValue (k : Z) (v : option value) : R := if is_vocab_param k then IZR (asVocab32 v) else asFloat64 v.

(** a pointer to the controller that was never set, is null, or points to one *)
Inductive handle (C : Type) := Unset | Null | At (c : C).
Arguments Unset {C}. Arguments Null {C}. Arguments At {C}.

(** what becomes of a request: undefined behaviour, an answer by the server, or a call of
    the controller's method with a way to answer *)
Inductive served (C : Type) := Undefined | Reply (b : bottle) | Ask (c : C) (r : request) (k : reply -> option bottle).
Arguments Undefined {C}. Arguments Reply {C}. Arguments Ask {C}.

Definition fail : bottle := [VVocab VOCAB_CC_FAILED].
Definition okay : bottle := [VVocab VOCAB_CC_OK].

(** the conversions of the transform port (495-509): success and the converted numbers;
    [None]: undefined behaviour *)
Record conversion := Conv { incoming : list R -> option (bool * list R); outgoing : list R -> option (bool * list R) }.
Definition plain : conversion := Conv (fun x => Some (true, x)) (fun x => Some (true, x)).
Definition in_place (f : nat -> nat -> KinRep.coordinate_system -> KinRep.orientation_system -> KinRep.angular_units -> KinRep.prog bool)
    (c : KinRep.coordinate_system) (o : KinRep.orientation_system) (u : KinRep.angular_units) (x : list R) : option (bool * list R) :=
  match f 0%nat 0%nat c o u (fun _ => x) with Some (b, m) => Some (b, m 0%nat) | None => None end.
Definition transform (c : KinRep.coordinate_system) (o : KinRep.orientation_system) (u : KinRep.angular_units) : conversion :=
  Conv (in_place KinRep.encodePose c o u) (in_place KinRep.decodePose c o u).

Definition numbers (b : bottle) : list R := map (fun v => asFloat64 (Some v)) b.

Section Respond.
Context {C : Type} (c : C) (t : conversion).
(** 209-239: handleStatMsg.  The answer to a stat is a [Stated] or a failure. *)
Definition handleStat (b : bottle) : served C := Ask c RStat (fun r =>
  match r with
  | Stated x state time =>
      match outgoing t x with
      | None => None
      | Some (false, _) => Some fail
      | Some (true, y) => Some (VVocab state :: map VFloat y ++ [VFloat time])
      end
  | _ => Some fail
  end).
Definition yes_no (r : reply) : option bottle := Some (match r with Failed => fail | _ => okay end).
(** 243-265: handleWaitMsg; the default timeout is that of the interface (ICartesianControl.h 291) *)
Definition handleWait (b : bottle) : served C :=
  Ask c (RWait (if Nat.ltb 1 (length b) then asFloat64 (get b 1) else 0)) yes_no.
(** 269-292: handleActMsg *)
Definition handleAct (b : bottle) : served C :=
  if Nat.ltb 1 (length b) then Ask c (RAct (asVocab32 (get b 1))) yes_no else Reply fail.
(** 296-308: handleRunnableCmdMsg *)
Definition handleRunnable (r : request) : served C := Ask c r yes_no.
(** 312-338: handleConsumerCmdMsg *)
Definition handleConsumer (b : bottle) (cmd : list R -> request) : served C :=
  if Nat.ltb 1 (length b) then
    match incoming t (numbers (tl b)) with
    | None => Undefined
    | Some (false, _) => Reply fail
    | Some (true, x) => Ask c (cmd x) yes_no
    end
  else Reply fail.
(** 342-372: handleFunctionCmdMsg *)
Definition handleFunction (b : bottle) (cmd : list R -> request) : served C :=
  if Nat.ltb 1 (length b) then
    match incoming t (numbers (tl b)) with
    | None => Undefined
    | Some (false, _) => Reply fail
    | Some (true, x) => Ask c (cmd x) (fun r => Some (match r with Nums q => map VFloat q | _ => fail end))
    end
  else Reply fail.
(** 376-398: handleParameterSetter *)
Definition handleSet (b : bottle) : served C :=
  if Nat.ltb 2 (length b) then let k := asVocab32 (get b 1) in Ask c (RSet k (asValue k (get b 2))) yes_no else Reply fail.
(** 402-424: handleParameterGetter *)
Definition handleGet (b : bottle) : served C :=
  if Nat.ltb 1 (length b) then
    let k := asVocab32 (get b 1) in
    Ask c (RGet k) (fun r => match r with Val v => option_map (fun x => [x]) (mkValue k v) | _ => Some fail end)
  else Reply fail.
(** 428-464: handleParameterSetterGroup; emplace leaves existing entries alone *)
Fixpoint read_params (b : list value) (m : list (Z * R)) : option (list (Z * R)) :=
  match b with
  | [] => Some m
  | v :: b' =>
      match asList (Some v) with
      | Some l => if Nat.eqb (length l) 2
                  then let k := asVocab32 (get l 0) in read_params b' (Bcc.emplace k (asValue k (get l 1)) m)
                  else None
      | None => None
      end
  end.
Definition handleSets (b : bottle) : served C :=
  if Nat.ltb 2 (length b) then
    match read_params (skipn 2 b) [] with None => Reply fail | Some m => Ask c (RSets m) yes_no end
  else Reply fail.
(** 468-495: handleParameterGetterGroup *)
Fixpoint write_params (m : list (Z * R)) : option bottle :=
  match m with
  | [] => Some []
  | (k, v) :: m' =>
      match mkValue k v, write_params m' with
      | Some x, Some b => Some (VList [VVocab k; x] :: b)
      | _, _ => None
      end
  end.
Definition handleGets (b : bottle) : served C :=
  if Nat.eqb (length b) 2 then Ask c RGets (fun r => match r with Params m => write_params m | _ => Some fail end) else Reply fail.
(** 20-23: isGroupParam *)
Definition isGroupParam (b : bottle) : bool := Nat.ltb 1 (length b) && Z.eqb (asVocab32 (get b 1)) VOCAB_CC_CONFIG_PARAMS.

(** 52-94: the switch of respond; [base] is what YARP's DeviceResponder answers *)
Definition dispatch (base : bottle -> bottle) (b : bottle) : served C :=
  let v := asVocab32 (get b 0) in
  if Z.eqb v VOCAB_CC_STAT then handleStat b
  else if Z.eqb v VOCAB_CC_INV then handleFunction b RInv
  else if Z.eqb v VOCAB_CC_MOVJ then handleConsumer b RMovj
  else if Z.eqb v VOCAB_CC_RELJ then handleConsumer b RRelj
  else if Z.eqb v VOCAB_CC_MOVL then handleConsumer b RMovl
  else if Z.eqb v VOCAB_CC_MOVV then handleConsumer b RMovv
  else if Z.eqb v VOCAB_CC_GCMP then handleRunnable RGcmp
  else if Z.eqb v VOCAB_CC_FORC then handleConsumer b RForc
  else if Z.eqb v VOCAB_CC_STOP then handleRunnable RStop
  else if Z.eqb v VOCAB_CC_WAIT then handleWait b
  else if Z.eqb v VOCAB_CC_TOOL then handleConsumer b RTool
  else if Z.eqb v VOCAB_CC_ACT then handleAct b
  else if Z.eqb v VOCAB_CC_SET then (if isGroupParam b then handleSets b else handleSet b)
  else if Z.eqb v VOCAB_CC_GET then (if isGroupParam b then handleGets b else handleGet b)
  else Reply (base b).
End Respond.
(** 52-59: respond; reading a pointer that was never set is undefined *)
Definition respond {C} (h : handle C) (t : conversion) (base : bottle -> bottle) (b : bottle) : served C :=
  match h with Unset => Undefined | Null => Reply fail | At c => dispatch c t base b end.

(** ** StreamResponder.cpp 15-62: nothing is answered *)
Definition onRead {C} (h : handle C) (b : bottle) : option (C * request) :=
  match h with
  | At c =>
      let v := asVocab32 (get b 0) in
      let consumer (cmd : list R -> request) := if Nat.ltb 1 (length b) then Some (c, cmd (numbers (tl b))) else None in
      if Z.eqb v VOCAB_CC_POSE || Z.eqb v VOCAB_CC_MOVI then consumer RPose
      else if Z.eqb v VOCAB_CC_TWIST then consumer RTwist
      else if Z.eqb v VOCAB_CC_WRENCH then consumer RWrench
      else None
  | _ => None
  end.

(** ** CartesianControlClient/ICartesianControlImpl.cpp *)

(** 16-19: checkSuccess *)
Definition checkSuccess (b : bottle) : bool := negb (isVocab32 (get b 0)) || negb (Z.eqb (asVocab32 (get b 0)) VOCAB_CC_FAILED).

(** 48-87, 155-159, 188-275, 300-364: the request sent for a method; [None]: undefined conversion *)
Definition command (v : Z) (x : list R) : option bottle := Some (VVocab v :: map VFloat x).
Definition client_send (r : request) : option bottle :=
  match r with
  | RStat => Some [VVocab VOCAB_CC_STAT]
  | RInv x => command VOCAB_CC_INV x
  | RMovj x => command VOCAB_CC_MOVJ x
  | RRelj x => command VOCAB_CC_RELJ x
  | RMovl x => command VOCAB_CC_MOVL x
  | RMovv x => command VOCAB_CC_MOVV x
  | RGcmp => Some [VVocab VOCAB_CC_GCMP]
  | RForc x => command VOCAB_CC_FORC x
  | RStop => Some [VVocab VOCAB_CC_STOP]
  | RWait t => Some [VVocab VOCAB_CC_WAIT; VFloat t]
  | RTool x => command VOCAB_CC_TOOL x
  | RAct k => Some [VVocab VOCAB_CC_ACT; VVocab k]
  | RSet k v => option_map (fun x => [VVocab VOCAB_CC_SET; VVocab k; x]) (mkValue k v)
  | RGet k => Some [VVocab VOCAB_CC_GET; VVocab k]
  | RSets m => option_map (fun b => VVocab VOCAB_CC_SET :: VVocab VOCAB_CC_CONFIG_PARAMS :: b) (write_params m)
  | RGets => Some [VVocab VOCAB_CC_GET; VVocab VOCAB_CC_CONFIG_PARAMS]
  (* 106-119, 279-296: sent through the command port *)
  | RPose x => command VOCAB_CC_POSE x
  | RTwist x => command VOCAB_CC_TWIST x
  | RWrench x => command VOCAB_CC_WRENCH x
  end.

(** what the caller gets, given the bottle received (empty if the request was not delivered).
    [None]: std::vector::resize to more elements than it can hold (171), or a null pointer
    (373-374). *)
Fixpoint merge_params (b : bottle) (m : list (Z * R)) : option (list (Z * R)) :=
  match b with
  | [] => Some m
  | v :: b' =>
      match asList (Some v) with
      | Some l => let k := asVocab32 (get l 0) in merge_params b' (Bcc.emplace k (asValue k (get l 1)) m)
      | None => None
      end
  end.
Definition client_stat (b : bottle) : option reply :=
  if negb (checkSuccess b) then Some Failed else
  if Nat.ltb (length b) 2 then None else
  Some (Stated (map (fun i => asFloat64 (get b (i + 1))) (seq 0 (length b - 2))) (asVocab32 (get b 0)) (asFloat64 (get b (length b - 1)))).
Definition client_receive (r : request) (b : bottle) : option reply :=
  match r with
  | RStat => client_stat b
  | RInv _ => Some (if checkSuccess b then Nums (numbers b) else Failed)
  | RGet k => Some (if checkSuccess b then Val (asValue k (get b 0)) else Failed)
  | RGets => if checkSuccess b then option_map Params (merge_params b []) else Some Failed
  | _ => Some (if checkSuccess b then Okay else Failed)
  end.

(** ** FkStreamResponder.cpp and stat (ICartesianControlImpl.cpp 141-184) *)
Record fk := Fk { arrival : R; fk_state : Z; fk_time : R; fk_x : list R }.
(** 11-15 *)
Definition fk_new : fk := Fk 0 0 0 [].
(** 19-33: onRead, at local time [now]; [None]: as in [client_stat] *)
Definition fk_read (now : R) (b : bottle) (s : fk) : option fk :=
  if Nat.ltb (length b) 2 then None else
  Some (Fk now (asVocab32 (get b 0)) (asFloat64 (get b (length b - 1)))
           (map (fun i => asFloat64 (get b (i + 1))) (seq 0 (length b - 2)))).
(** 37-54: getLastStatData *)
Definition fk_last (now timeout : R) (s : fk) : list R * Z * R * bool :=
  (fk_x s, fk_state s, fk_time s, Rleb (now - arrival s) timeout).
(** stat; [rpc] is the bottle an RPC request receives *)
Definition stat (stream : bool) (now timeout : R) (s : fk) (rpc : bottle) : option reply :=
  let '(x, v, time, fresh) := fk_last now timeout s in
  if stream && fresh then Some (Stated x v time) else client_stat rpc.

(** ** The server's pointers (DeviceDriverImpl.cpp, IWrapperImpl.cpp, PeriodicThreadImpl.cpp) *)
Record server (C : Type) := Server {
  device : option C;          (* CartesianControlServer.hpp: iCartesianControl *)
  rpc_handle : handle C;
  transform_handle : option (handle C);  (* only if the port was opened *)
  stream_handle : handle C;
  streaming : bool;           (* the state port is open *)
  running : bool }.           (* the periodic thread *)
Arguments Server {C}. Arguments device {C}. Arguments rpc_handle {C}. Arguments transform_handle {C}.
Arguments stream_handle {C}. Arguments streaming {C}. Arguments running {C}.

(** IWrapperImpl.cpp 38-60: configureHandle, the thread starting without problems *)
Definition configureHandle {C} (s : server C) : bool * server C :=
  match device s with
  | None => (false, s)
  | Some c => (true, Server (Some c) (At c) (option_map (fun _ => At c) (transform_handle s)) (At c) (streaming s) (streaming s || running s))
  end.
(** what open finds in the configuration for one of the representations *)
Inductive option_given := Absent | Known | Unknown.
(** DeviceDriverImpl.cpp 20-156: open with its ports opening without problems.  [sub]: the
    controller of the subdevice, if one was asked for (it is a valid controller, otherwise open
    fails at once); [period]: fkPeriod *)
Definition open {C} (sub : option C) (period : Z) (coord angle units : option_given) : bool * server C :=
  let known o := match o with Known => true | _ => false end in
  let without := Server sub Unset None Null (Z.ltb 0 period) false in
  match angle, units with
  | Unknown, _ | _, Unknown => (true, without)
  | _, _ =>
      let s := if known coord || known angle || known units
               then Server sub Unset (Some Unset) Null (Z.ltb 0 period) false else without in
      match sub with None => (true, s) | Some _ => configureHandle s end
  end.
(** what is given to attach: no valid device, a device that is no Cartesian controller, or one
    that is.  YARP's view (external, from memory) leaves a null pointer when it fails. *)
Inductive given (C : Type) := Invalid | Other | Controller (c : C).
Arguments Invalid {C}. Arguments Other {C}. Arguments Controller {C}.
(** IWrapperImpl.cpp 13-34: attach *)
Definition attach {C} (d : given C) (s : server C) : bool * server C :=
  let with_device o := Server o (rpc_handle s) (transform_handle s) (stream_handle s) (streaming s) (running s) in
  match d with
  | Invalid => (false, s)
  | Other => (false, with_device None)
  | Controller c => configureHandle (with_device (Some c))
  end.
(** IWrapperImpl.cpp 64-69: detach *)
Definition detach {C} (s : server C) : bool * server C :=
  (true, Server None (rpc_handle s) (transform_handle s) (stream_handle s) (streaming s) false).
(** PeriodicThreadImpl.cpp 9-34: run, if the thread runs; [k] writes the state *)
Definition run {C} (s : server C) : option (C * request * (reply -> option bottle)) :=
  if running s then
    match device s with
    | Some c => Some (c, RStat, fun r => match r with Stated x state time => Some (VVocab state :: map VFloat x ++ [VFloat time]) | _ => None end)
    | None => None
    end
  else None.
