(** What the properties of the solvers used by several threads say.  Nothing here models code. *)
From Coq Require Import Reals List Bool Arith.
From Verif Require Import Kdl KdlRot Trig KinRep KdlSolver Ft Tree ToolRace.
Import ListNotations.
Open Scope R_scope.
Local Notation length := List.length.

(** the questions *)
Inductive query :=
| FwdKin (q : list R)
| InvKin (xd qGuess : list R) (fr : ref_frame)
| DiffInvKin (q xdot : list R) (fr : ref_frame)
| Gravity (q : list R)
| InvDyn (q qdot qdotdot ftip : list R) (fr : ref_frame).
Section Solvers.
Context (ik : chain -> list R -> frame -> option (list R)) (k : chain_solvers).
(** the answer of the solver [s] used by one thread *)
Definition alone (s : solver) (x : query) : tresult :=
  match x with
  | FwdKin q => match fwdKin s q with None => TUndef | Some p => TTrue p end
  | InvKin xd q fr => invKin_with ik (sv_chain s) xd q fr
  | DiffInvKin q xdot fr => diffInvKin k s q xdot fr
  | Gravity q => gravityDyn k s q
  | InvDyn q qd qdd f fr => invDyn k s q qd qdd f fr
  end.
(** the accesses of the same method *)
Definition code (x : query) : prog :=
  match x with
  | FwdKin q => p_fwdKin q
  | InvKin xd q fr => p_invKin ik xd q fr
  | DiffInvKin q xdot fr => p_diffInvKin k q xdot fr
  | Gravity q => p_gravity k q
  | InvDyn q qd qdd f fr => p_invDyn k q qd qdd f fr
  end.
(** the solvers answer with one value per joint, and the one for the dynamics wants one wrench per segment *)
Definition sized : Prop :=
  (forall c q x l, ik c q x = Some l -> length l = nr_of_joints c) /\
  (forall c q x l, c_vel k c q x = Some l -> length l = nr_of_joints c) /\
  (forall c q qd qdd fs l, c_dyn k c q qd qdd fs = Some l -> length q = nr_of_joints c -> length qd = nr_of_joints c -> length qdd = nr_of_joints c ->
     length l = nr_of_joints c /\ length fs = length c).
End Solvers.
(** a question about positions or velocities, not about forces *)
Definition kinematic (x : query) : Prop := match x with Gravity _ | InvDyn _ _ _ _ _ => False | _ => True end.

(** one thread: the solver after a change, and after the first [n] of several *)
Definition change (s : solver) (o : tool_op) : solver :=
  match o with
  | Append x => Sv (sv_chain s ++ [mk_segment fixed_joint (vectorToFrame x)]) (sv_original s) (sv_ik s)
  | Restore => Sv (sv_original s) (sv_original s) (sv_ik s)
  end.
Definition after (s : solver) (os : list tool_op) (n : nat) : solver := fold_left change (firstn n os) s.
Definition adds (o : tool_op) : Prop := match o with Append _ => True | Restore => False end.
(** a tool is a fixed segment: the solver has the joints of the robot *)
Definition own_joints (s : solver) : Prop := nr_of_joints (sv_chain s) = nr_of_joints (sv_original s).

(** the changes begun, in order, and how many have ended *)
Definition begun (w : world) : list tool_op := map snd (w_history w).
Definition ended (w : world) : nat := match w_owner w with None => length (w_history w) | Some _ => length (w_history w) - 1 end.
(** the answer is that of the solver, used by one thread, at an instant of the query, which began in [w1] and ended in [w2] *)
Definition at_an_instant (ik : chain -> list R -> frame -> option (list R)) (k : chain_solvers) (s : solver) (x : query) (w1 w2 : world) (r : tresult) : Prop :=
  exists n, (ended w1 <= n <= length (begun w2))%nat /\ r = alone ik k (after s (begun w2) n) x.
(** turns of the threads that change the tool *)
Definition changing (t : turn) : Prop := match t with Asker => False | Changer _ => True end.
(** all the changes are made *)
Definition all_made (w : world) : Prop := w_owner w = None /\ forall i, nth i (w_threads w) [] = [].
(** the changes [h], each with its thread, are those of the threads, those of each thread in its order *)
Definition shuffles (threads : list (list tool_op)) (h : list (nat * tool_op)) : Prop :=
  forall i, map snd (filter (fun p => Nat.eqb (fst p) i) h) = nth i threads [].
