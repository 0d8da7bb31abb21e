(** The chain solver used by several threads: some change the tool while another one asks.
    KdlSolver/ICartesianSolverImpl.cpp.  The methods are broken into the accesses to the members that
    the threads share (the chain, its counters and the lock), and a schedule says whose turn it is. *)
From Coq Require Import Reals List Bool Arith.
From Verif Require Import Kdl KdlRot Trig KinRep KdlSolver Ft Tree.
Import ListNotations.
Open Scope R_scope.
Local Notation length := List.length.

(** KDL::Chain (trusted): the vector of segments and the counters nrOfJoints and nrOfSegments *)
Record shared := Sh { sh_segs : chain; sh_nj : nat; sh_ns : nat }.
(** a chain nobody is changing *)
Definition at_rest (c : chain) : shared := Sh c (nr_of_joints c) (length c).

(** what KDL::Chain::addSegment and operator= do, one store at a time *)
Inductive action := ZeroJoints | ZeroSegments | Clear | Push (s : segment) | CountSegment | CountJoint.
Definition act (m : shared) (a : action) : shared :=
  match a with
  | ZeroJoints => Sh (sh_segs m) 0 (sh_ns m)
  | ZeroSegments => Sh (sh_segs m) (sh_nj m) 0
  | Clear => Sh [] (sh_nj m) (sh_ns m)
  | Push s => Sh (sh_segs m ++ [s]) (sh_nj m) (sh_ns m)
  | CountSegment => Sh (sh_segs m) (sh_nj m) (Datatypes.S (sh_ns m))
  | CountJoint => Sh (sh_segs m) (Datatypes.S (sh_nj m)) (sh_ns m)
  end.
(** KDL::Chain::addSegment *)
Definition add_segment (s : segment) : list action := [Push s; CountSegment] ++ (if is_fixed (s_joint s) then [] else [CountJoint]).
(** ICartesianSolverImpl.cpp 37-44 and 53-60: appendLink and restoreOriginalChain, between taking and
    leaving the lock.  The update of the solvers is left out: they are used with the lock taken, or
    (297-298) look at the chain only. *)
Definition actions (orig : chain) (o : tool_op) : list action :=
  match o with
  | Append x => add_segment (mk_segment fixed_joint (vectorToFrame x))
  | Restore => [ZeroJoints; ZeroSegments; Clear] ++ concat (map add_segment orig)
  end.
(** whether the change stores to the counter of joints *)
Definition stores_joints (o : tool_op) : bool := match o with Append _ => false | Restore => true end.

(** ** A query, as the accesses it makes *)
Inductive prog :=
| Done (r : option (list R))            (* the method returns: [None] is false *)
| Undef                                 (* access out of range *)
| ReadJoints (k : nat -> prog)          (* chain.getNrOfJoints(), without the lock *)
| ReadSegments (k : nat -> prog)        (* chain.getNrOfSegments(), without the lock *)
| Locked (k : chain -> prog)            (* a block with the lock taken, which sees the whole chain *)
| Bare (k : chain -> prog).             (* the same without the lock *)

(** 84-87, 159-162, ...: for (motor = 0; motor < chain.getNrOfJoints(); motor++) out(motor) = f(src[motor]),
    where out has [size] zeroes.  Also the last loops, where out is the vector of the caller: it is empty
    when the method is called (otherwise the entries that the loop does not reach keep what they had). *)
Fixpoint fill (f : R -> R) (size : nat) (src : list R) (motor : nat) (k : list R -> prog) : prog :=
  ReadJoints (fun n =>
    if Nat.ltb motor n then
      match src with
      | [] => Undef
      | x :: src' => if Nat.ltb motor size then fill f size src' (Datatypes.S motor) (fun l => k (f x :: l)) else Undef
      end
    else k (repeat 0 (size - motor))).
(** KDL::JntArray out(chain.getNrOfJoints()) or q.resize(...), and the loop *)
Definition load (f : R -> R) (src : list R) (k : list R -> prog) : prog := ReadJoints (fun n => fill f n src 0 k).
(** KDL::ChainFkSolverPos_recursive::JntToCart with the result not tested: the identity when the sizes differ *)
Definition jnt_to_cart (c : chain) (q : list R) : frame := match chain_fwd_kin c q with Some h => h | None => fid end.
(** the end of the methods: ret is tested and the result is copied *)
Definition finish (f : R -> R) (r : option (list R)) : prog :=
  match r with None => Done None | Some l => load f l (fun q => Done (Some q)) end.

(** 80-99: fwdKin *)
Definition p_fwdKin (q : list R) : prog :=
  load degToRad q (fun qr => Locked (fun c => Done (Some (frameToVector (jnt_to_cart c qr))))).
(** 116-165: invKin, with any solver for positions [ik] (solvers that keep something from one call to the
    next, as the closed-form one, are in KdlSolver.v) *)
Definition p_invKin (ik : chain -> list R -> frame -> option (list R)) (xd qGuess : list R) (fr : ref_frame) : prog :=
  load degToRad qGuess (fun qr => ReadJoints (fun _ => Locked (fun c =>
    match fr with
    | OTHER_FRAME => Done None
    | BASE_FRAME => finish radToDeg (ik c qr (vectorToFrame xd))
    | TCP_FRAME => finish radToDeg (ik c qr (fmul (jnt_to_cart c qr) (vectorToFrame xd)))
    end))).
(** the same, alone *)
Definition invKin_with (ik : chain -> list R -> frame -> option (list R)) (c : chain) (xd qGuess : list R) (fr : ref_frame) : tresult :=
  match joints_in c qGuess with
  | None => TUndef
  | Some qr =>
      let x := match fr with
               | BASE_FRAME => Some (vectorToFrame xd)
               | TCP_FRAME => option_map (fun h => fmul h (vectorToFrame xd)) (chain_fwd_kin c qr)
               | OTHER_FRAME => None
               end in
      match x with
      | None => TFalse
      | Some x => match ik c qr x with None => TFalse | Some q => TTrue (map radToDeg q) end
      end
  end.
(** 169-221: diffInvKin *)
Definition p_diffInvKin (k : chain_solvers) (q xdot : list R) (fr : ref_frame) : prog :=
  load degToRad q (fun qr => ReadJoints (fun _ => Locked (fun c =>
    match fr with
    | OTHER_FRAME => Done None
    | BASE_FRAME => finish radToDeg (c_vel k c qr (vectorToTwist xdot))
    | TCP_FRAME => finish radToDeg (c_vel k c qr (trot (fM (jnt_to_cart c qr)) (vectorToTwist xdot)))
    end))).
Definition same (x : R) : R := x.
(** 225-264: invDyn, gravity only *)
Definition p_gravity (k : chain_solvers) (q : list R) : prog :=
  load degToRad q (fun qr => ReadJoints (fun n1 => ReadJoints (fun n2 => ReadJoints (fun _ => ReadSegments (fun m => Locked (fun c =>
    finish same (c_dyn k c qr (repeat 0 n1) (repeat 0 n2) (repeat wrench_zero m)))))))).
(** 268-338: invDyn *)
Definition p_invDyn (k : chain_solvers) (q qdot qdotdot ftip : list R) (fr : ref_frame) : prog :=
  load degToRad q (fun qr => load degToRad qdot (fun qd => load degToRad qdotdot (fun qdd => ReadSegments (fun m =>
    let rest w := match m with
                  | O => Undef
                  | Datatypes.S m' => ReadJoints (fun _ => Locked (fun c => finish same (c_dyn k c qr qd qdd (repeat wrench_zero m' ++ [w]))))
                  end in
    match fr with
    | OTHER_FRAME => Done None
    | TCP_FRAME => rest (vectorToWrench ftip)
    | BASE_FRAME => Bare (fun c => rest (wrot (mT (fM (jnt_to_cart c qr))) (vectorToWrench ftip)))
    end)))).

(** ** The threads *)
(** [w_owner]: the thread that has the lock for a change, the change, and what is left of it;
    [w_threads]: the changes that each thread has not begun; [w_history]: the changes begun, with the
    thread of each (not in the code); [w_query]: what is left of the query *)
Record world := W { w_mem : shared; w_owner : option (nat * tool_op * list action); w_threads : list (list tool_op);
                    w_history : list (nat * tool_op); w_query : prog }.
(** whose turn it is: the thread of the query, or one of those that change the tool *)
Inductive turn := Asker | Changer (i : nat).

Fixpoint set_nth {A} (i : nat) (x : A) (l : list A) : list A :=
  match l, i with
  | [], _ => []
  | _ :: l', O => x :: l'
  | y :: l', Datatypes.S i' => y :: set_nth i' x l'
  end.

(** [strict]: to read a counter while another thread stores to it is undefined, as the standard of the
    language says; otherwise it gives what the counter has at that moment, as the usual processors do.
    To go through the segments while another thread changes them is undefined always. *)
Definition ask (strict : bool) (w : world) : prog :=
  match w_query w with
  | ReadJoints k => match w_owner w with
                    | Some (_, o, _) => if strict && stores_joints o then Undef else k (sh_nj (w_mem w))
                    | None => k (sh_nj (w_mem w))
                    end
  | ReadSegments k => match w_owner w with Some _ => if strict then Undef else k (sh_ns (w_mem w)) | None => k (sh_ns (w_mem w)) end
  | Locked k => match w_owner w with Some _ => w_query w | None => k (sh_segs (w_mem w)) end
  | Bare k => match w_owner w with Some _ => Undef | None => k (sh_segs (w_mem w)) end
  | p => p
  end.
Definition step (strict : bool) (orig : chain) (t : turn) (w : world) : world :=
  match t with
  | Asker => W (w_mem w) (w_owner w) (w_threads w) (w_history w) (ask strict w)
  | Changer i =>
      match w_owner w with
      | Some (j, o, l) =>
          if Nat.eqb i j then
            match l with
            | a :: l' => W (act (w_mem w) a) (Some (j, o, l')) (w_threads w) (w_history w) (w_query w)
            | [] => W (w_mem w) None (w_threads w) (w_history w) (w_query w)
            end
          else w
      | None =>
          match nth i (w_threads w) [] with
          | o :: os => W (w_mem w) (Some (i, o, actions orig o)) (set_nth i os (w_threads w)) (w_history w ++ [(i, o)]) (w_query w)
          | [] => w
          end
      end
  end.
Definition play (strict : bool) (orig : chain) (ts : list turn) (w : world) : world := fold_left (fun w t => step strict orig t w) ts w.
(** the chain [c] at rest, threads that are going to make these changes, and a query *)
Definition begin (c : chain) (threads : list (list tool_op)) (p : prog) : world := W (at_rest c) None threads [] p.
(** what the query has answered, if it has *)
Definition answered (w : world) : option tresult :=
  match w_query w with
  | Done None => Some TFalse
  | Done (Some l) => Some (TTrue l)
  | Undef => Some TUndef
  | _ => None
  end.
