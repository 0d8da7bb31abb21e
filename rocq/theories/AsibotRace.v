(** The solver of ASIBOT used by several threads: some change the tool while another one asks.
    AsibotSolver/AsibotSolver.cpp 16-30 and ICartesianSolverImpl.cpp.  Only the tool is shared; each copy
    of it, in or out, is made with the lock taken, and is one turn of a thread. *)
From Coq Require Import Reals List Bool Arith.
From Verif Require Import Kdl KdlRot Trig KinRep Asibot.
Import ListNotations.
Open Scope R_scope.
Local Notation length := List.length.

(** AsibotSolver.hpp: AsibotTcpFrame *)
Definition tcp := (bool * frame)%type.
Definition with_tcp (s : asibot) (t : tcp) : asibot := As (A0 s) (A1 s) (A2 s) (A3 s) (qMin s) (qMax s) (fst t) (snd t).
Definition tcp_of (s : asibot) : tcp := (hasFrame s, frameTcp s).

Inductive a_change := AAppend (x : list R) | ARestore.
(** ICartesianSolverImpl.cpp 204-209 and 218-221: what is stored, from what was read; [None]: undefined *)
Definition a_new (o : a_change) (t : tcp) : option tcp :=
  match o with
  | AAppend x => option_map (fun h => (true, fmul (snd t) h)) (vectorToMatrix x)
  | ARestore => Some (false, fid)
  end.

(** a query, as the copies of the tool that it makes ([Answer None]: undefined; [Some None]: false) *)
Inductive a_prog := Answer (r : option (option (list R))) | Get (k : tcp -> a_prog).
(** 240-284: fwdKin *)
Definition a_fwdKin (svd : mat -> vec) (s : asibot) (q : list R) : a_prog :=
  Get (fun t => Answer (option_map Some (fwdKin svd (with_tcp s t) q))).
(** 314-417: invKin *)
Definition a_invKin (svd : mat -> vec) (s : asibot) (xd guess : list R) (fr : reference_frame) : a_prog :=
  match fr with
  | BASE_FRAME => Get (fun t => Answer (invKin svd (with_tcp s t) xd guess BASE_FRAME))
  | TCP_FRAME => Get (fun t => match fwdKin svd (with_tcp s t) guess with
                               | None => Answer None
                               | Some x => match changeOrigin svd xd x with
                                           | None => Answer None
                                           | Some xb => Get (fun t => Answer (invKin svd (with_tcp s t) xb guess BASE_FRAME))
                                           end
                               end)
  | OTHER_FRAME => Answer (Some None)
  end.
(** (421-483, diffInvKin, which also copies the tool twice, is not taken up here) *)

(** [a_tcp]: the tool; [a_threads]: for each thread that changes it, what its change in course has read,
    and its changes, that one included; [a_query]: what is left of the query *)
Record a_world := AW { a_tcp : tcp; a_threads : list (option tcp * list a_change); a_query : a_prog }.
Inductive a_turn := AAsker | AChanger (i : nat).
Fixpoint a_set {A} (i : nat) (x : A) (l : list A) : list A :=
  match l, i with
  | [], _ => []
  | _ :: l', O => x :: l'
  | y :: l', Datatypes.S i' => y :: a_set i' x l'
  end.
(** [None]: undefined (the vector of appendLink is not a pose) *)
Definition a_step (t : a_turn) (w : a_world) : option a_world :=
  match t with
  | AAsker => Some (AW (a_tcp w) (a_threads w) (match a_query w with Get k => k (a_tcp w) | p => p end))
  | AChanger i =>
      match nth i (a_threads w) (None, []) with
      | (None, o :: os) => Some (AW (a_tcp w) (a_set i (Some (a_tcp w), o :: os) (a_threads w)) (a_query w))
      | (Some t, o :: os) => option_map (fun t' => AW t' (a_set i (None, os) (a_threads w)) (a_query w)) (a_new o t)
      | (_, []) => Some w
      end
  end.
Fixpoint a_play (ts : list a_turn) (w : a_world) : option a_world :=
  match ts with
  | [] => Some w
  | t :: ts' => match a_step t w with Some w' => a_play ts' w' | None => None end
  end.
Definition a_begin (s : asibot) (threads : list (list a_change)) (p : a_prog) : a_world := AW (tcp_of s) (map (fun os => (None, os)) threads) p.
