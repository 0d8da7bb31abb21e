(** Model of the tree solver device (YarpPlugins/KdlTreeSolver).

    External and given as parameters: KDL's tree solvers for inverse kinematics, velocities
    and dynamics (the last one is in TreeDyn.v, with masses and inertias).  Not modelled: numeric
    parameters of those solvers. *)
From Coq Require Import Reals List Bool Arith ZArith String DecimalString.
From Verif Require Import Kdl KdlRot KinRep KdlSolver Config Ft.
Import ListNotations.
Open Scope R_scope.
Local Notation S := Datatypes.S.
Local Notation length := List.length.
Local Notation concat := List.concat.

(** ** KDL (trusted, like Kdl.v) *)

(** KDL::Twist and KDL::Wrench: KDL::Rotation * KDL::Twist turns both vectors *)
Definition trot (m : mat) (t : twist) : twist := Tw (mv m (t_vel t)) (mv m (t_rot t)).

(** KDL::TreeElement: segment with its name, parent and joint number; newest first.  The
    root, named "root", is not in the list. *)
Record node := Nd { nd_name : string; nd_seg : segment; nd_parent : string; nd_q : nat }.
Definition tree := list node.
Definition has_segment (t : tree) (name : string) : bool :=
  String.eqb name "root" || existsb (fun n => String.eqb (nd_name n) name) t.
(** KDL::Tree::getNrOfJoints *)
Definition tree_joints (t : tree) : nat := length (filter (fun n => negb (is_fixed (s_joint (nd_seg n)))) t).
(** KDL::Tree::addSegment: false for an unknown hook and for a name already there *)
Definition add_segment (t : tree) (name : string) (s : segment) (hook : string) : option tree :=
  if has_segment t hook && negb (has_segment t name)
  then Some (Nd name s hook (if is_fixed (s_joint s) then 0%nat else tree_joints t) :: t)
  else None.
(** KDL::Tree::addChain *)
Fixpoint add_chain (t : tree) (c : list (string * segment)) (hook : string) : option tree :=
  match c with
  | [] => Some t
  | (name, s) :: c' => match add_segment t name s hook with Some t' => add_chain t' c' name | None => None end
  end.
(** KDL::TreeFkSolverPos_recursive::JntToCart; [None] for its negative results: a joint
    vector of the wrong size, an unknown segment *)
Fixpoint tree_fk (t : tree) (q : list R) (name : string) : option frame :=
  match t with
  | [] => if String.eqb name "root" then Some fid else None
  | n :: t' =>
      if String.eqb (nd_name n) name
      then option_map (fun f => fmul f (segment_pose (nd_seg n) (nth (nd_q n) q 0))) (tree_fk t' q (nd_parent n))
      else tree_fk t' q name
  end.
Definition tree_fwd_kin (t : tree) (q : list R) (name : string) : option frame :=
  if Nat.eqb (length q) (tree_joints t) then tree_fk t q name else None.

(** ** The device *)

(** one section of the configuration: its name, hook, links, endpoint flag and mergeWith *)
Record tree_chain := Tc { tc_name : string; tc_hook : option string; tc_chain : chain_cfg; tc_endpoint : bool; tc_merge : option string }.

(** KdlTreeSolver.hpp: tree, endpoints, mergedEndpoints *)
Record tsolver := Ts { ts_tree : tree; ts_endpoints : list string; ts_merged : list (string * string) }.

(** DeviceDriverImpl.cpp 195, 208, 247, 307: the names of the segments *)
Definition segment_name (chain : string) (i : nat) (dh : bool) : string :=
  (chain ++ "_" ++ (if dh then "link_" else "xyzLink_") ++ NilEmpty.string_of_uint (Nat.to_uint i))%string.

(** DeviceDriverImpl.cpp 171-307: the segments of a chain, with their names *)
Definition named_chain (c : tree_chain) : option (list (string * segment)) :=
  match link_segments 0 (ch_links 0 (tc_chain c)) with
  | None => None
  | Some ss => Some ([((tc_name c ++ "_H0")%string, mk_segment none_joint (matrix_frame (ch_H0 (tc_chain c))))]
                     ++ map (fun x => (segment_name (tc_name c) (fst (fst x)) (snd (fst x)), snd x)) ss
                     ++ [(tc_name c, mk_segment none_joint (matrix_frame (ch_HN (tc_chain c))))])
  end.

(** DeviceDriverImpl.cpp 169-336: one pass of the loop over the chains; [None]: open returns false *)
Definition open_chain (s : tsolver) (c : tree_chain) : option tsolver :=
  match named_chain c with
  | None => None
  | Some segs =>
      match add_chain (ts_tree s) segs (or_default (tc_hook c) "root"%string) with
      | None => None
      | Some t =>
          if tc_endpoint c then
            let es := ts_endpoints s ++ [tc_name c] in
            match tc_merge c with
            | None => Some (Ts t es (ts_merged s))
            | Some m => if existsb (String.eqb m) es then Some (Ts t es ((tc_name c, m) :: ts_merged s)) else None
            end
          else Some (Ts t (ts_endpoints s) (ts_merged s))
      end
  end.
Fixpoint open_chains (s : tsolver) (cs : list tree_chain) : option tsolver :=
  match cs with
  | [] => Some s
  | c :: cs' => match open_chain s c with Some s' => open_chains s' cs' | None => None end
  end.

(** DeviceDriverImpl.cpp 75-124: retrieveJointLimits with the third list, maxvels *)
Definition retrieveTreeLimits (n : nat) (mins maxs vels : option (list R)) : option (list R * list R * list R) :=
  match vels, retrieveJointLimits n mins maxs with
  | Some vs, Some (lo, hi) => if Nat.eqb (length vs) n then Some (lo, hi, map degToRad vs) else None
  | _, _ => None
  end.

(** DeviceDriverImpl.cpp 129-409: open *)
Definition tree_open (cs : list tree_chain) (mins maxs vels : option (list R)) (ik : option string)
  : option (tsolver * (list R * list R * list R)) :=
  match cs with
  | [] => None
  | _ =>
      match open_chains (Ts [] [] []) cs with
      | None => None
      | Some s =>
          match retrieveTreeLimits (tree_joints (ts_tree s)) mins maxs vels with
          | None => None
          | Some lim =>
              let ik := or_default ik "nrjl"%string in
              if String.eqb ik "nrjl" || String.eqb ik "online" then Some (s, lim) else None
          end
      end
  end.

(** ICartesianSolverImpl.cpp 21-31: getNumJoints, getNumTcps *)
Definition getNumJoints (s : tsolver) : nat := tree_joints (ts_tree s).
Definition getNumTcps (s : tsolver) : nat := length (ts_endpoints s).

(** the block of six numbers with index [i]; [None]: past the end of the vector *)
Definition block (x : list R) (i : nat) : option (list R) :=
  if Nat.leb ((i + 1) * 6) (length x) then Some (firstn 6 (skipn (i * 6) x)) else None.

(** ICartesianSolverImpl.cpp 50-69, 103-123: changeOrigin, poseDiff (they return true) *)
Fixpoint blockwise (f : list R -> list R -> list R) (is_ : list nat) (x y : list R) : option (list R) :=
  match is_ with
  | [] => Some []
  | i :: is' =>
      match block x i, block y i, blockwise f is' x y with
      | Some a, Some b, Some r => Some (f a b ++ r)
      | _, _, _ => None
      end
  end.
Definition t_changeOrigin (s : tsolver) (x_old_obj x_new_old : list R) : option (list R) :=
  blockwise (fun a b => frameToVector (fmul (vectorToFrame b) (vectorToFrame a))) (seq 0 (getNumTcps s)) x_old_obj x_new_old.
Definition t_poseDiff (s : tsolver) (xLhs xRhs : list R) : option (list R) :=
  blockwise (fun a b => twistToVector (frame_diff (vectorToFrame b) (vectorToFrame a))) (seq 0 (getNumTcps s)) xLhs xRhs.

(** ICartesianSolverImpl.cpp 75-80 and alike: the first joints of the vector, in radians;
    [None]: it is shorter than the number of joints *)
Definition t_joints (s : tsolver) (q : list R) : option (list R) :=
  if Nat.leb (getNumJoints s) (length q) then Some (map degToRad (firstn (getNumJoints s) q)) else None.

(** forward kinematics of several endpoints; [None]: one of them fails *)
Fixpoint fk_all (t : tree) (q : list R) (es : list string) : option (list frame) :=
  match es with
  | [] => Some []
  | e :: es' => match tree_fwd_kin t q e, fk_all t q es' with Some f, Some fs => Some (f :: fs) | _, _ => None end
  end.

(** results of the methods below: undefined behaviour (a vector that is too short), the
    return value false, or true with a vector *)
Inductive tresult := TUndef | TFalse | TTrue (x : list R).

(** ICartesianSolverImpl.cpp 73-99: fwdKin *)
Definition t_fwdKin (s : tsolver) (q : list R) : tresult :=
  match t_joints s q with
  | None => TUndef
  | Some qr => match fk_all (ts_tree s) qr (ts_endpoints s) with None => TFalse | Some fs => TTrue (concat (map frameToVector fs)) end
  end.

(** std::map with string keys *)
Fixpoint lookup {A} (m : list (string * A)) (k : string) : option A :=
  match m with [] => None | (k', a) :: m' => if String.eqb k' k then Some a else lookup m' k end.
(** map.emplace: an existing entry is kept *)
Definition emplace {A} (m : list (string * A)) (k : string) (a : A) : list (string * A) :=
  match lookup m k with Some _ => m | None => m ++ [(k, a)] end.
Definition update {A} (m : list (string * A)) (k : string) (f : A -> A) : list (string * A) :=
  map (fun p => if String.eqb (fst p) k then (fst p, f (snd p)) else p) m.

(** ICartesianSolverImpl.cpp 129-144, 195-210, 302-317: the targets of the endpoints.
    [dflt]: the value operator[] creates for a key that is not there; [None]: past the end of
    the vector *)
Fixpoint targets {A} (conv : list R -> A) (dflt : A) (merged : list (string * string)) (es : list string) (x : list R)
  (i : nat) (m : list (string * A)) : option (list (string * A)) :=
  match es with
  | [] => Some m
  | e :: es' =>
      match lookup merged e with
      | Some w =>
          let m := emplace m w dflt in
          targets conv dflt merged es' x i (emplace m e (match lookup m w with Some a => a | None => dflt end))
      | None =>
          match block x i with
          | None => None
          | Some b => targets conv dflt merged es' x (S i) (emplace m e (conv b))
          end
      end
  end.

(** the loop over the endpoints that changes the basis of each target; [None]: forward
    kinematics fails *)
Fixpoint rebase {A} (t : tree) (q : list R) (f : frame -> A -> A) (es : list string) (m : list (string * A)) : option (list (string * A)) :=
  match es with
  | [] => Some m
  | e :: es' => match tree_fwd_kin t q e with None => None | Some h => rebase t q f es' (update m e (f h)) end
  end.

(** KDL's tree solvers; [None]: a negative result *)
Record tree_solvers := Tks { k_ik : list R -> list (string * frame) -> option (list R);
                             k_vel : list R -> list (string * twist) -> option (list R);
                             k_dyn : list R -> list R -> list R -> list (string * wrench) -> option (list R) }.

(** ICartesianSolverImpl.cpp 127-189: invKin *)
Definition t_invKin (k : tree_solvers) (s : tsolver) (xd qGuess : list R) (fr : ref_frame) : tresult :=
  match targets vectorToFrame fid (ts_merged s) (ts_endpoints s) xd 0 [], t_joints s qGuess with
  | Some m, Some qr =>
      let m := match fr with
               | BASE_FRAME => Some m
               | TCP_FRAME => rebase (ts_tree s) qr fmul (ts_endpoints s) m
               | OTHER_FRAME => None
               end in
      match m with
      | None => TFalse
      | Some m => match k_ik k qr m with None => TFalse | Some q => TTrue (map radToDeg q) end
      end
  | _, _ => TUndef
  end.

(** ICartesianSolverImpl.cpp 193-258: diffInvKin *)
Definition t_diffInvKin (k : tree_solvers) (s : tsolver) (q xdot : list R) (fr : ref_frame) : tresult :=
  match targets vectorToTwist twist_zero (ts_merged s) (ts_endpoints s) xdot 0 [], t_joints s q with
  | Some m, Some qr =>
      let m := match fr with
               | BASE_FRAME => Some m
               | TCP_FRAME => rebase (ts_tree s) qr (fun h => trot (fM h)) (ts_endpoints s) m
               | OTHER_FRAME => None
               end in
      match m with
      | None => TFalse
      | Some m => match k_vel k qr m with None => TFalse | Some qd => TTrue (map radToDeg qd) end
      end
  | _, _ => TUndef
  end.

(** ICartesianSolverImpl.cpp 262-295: invDyn, gravity only *)
Definition t_gravity (k : tree_solvers) (s : tsolver) (q : list R) : tresult :=
  match t_joints s q with
  | None => TUndef
  | Some qr =>
      let z := repeat 0 (getNumJoints s) in
      match k_dyn k qr z z (fold_left (fun m e => emplace m e wrench_zero) (ts_endpoints s) []) with
      | None => TFalse
      | Some t => TTrue t
      end
  end.

(** ICartesianSolverImpl.cpp 299-379: invDyn *)
Definition t_invDyn (k : tree_solvers) (s : tsolver) (q qdot qdotdot ftip : list R) (fr : ref_frame) : tresult :=
  match targets vectorToWrench wrench_zero (ts_merged s) (ts_endpoints s) ftip 0 [], t_joints s q, t_joints s qdot, t_joints s qdotdot with
  | Some m, Some qr, Some qd, Some qdd =>
      let m := match fr with
               | BASE_FRAME => rebase (ts_tree s) qr (fun h => wrot (mT (fM h))) (ts_endpoints s) m
               | TCP_FRAME => Some m
               | OTHER_FRAME => None
               end in
      match m with
      | None => TFalse
      | Some m => match k_dyn k qr qd qdd m with None => TFalse | Some t => TTrue t end
      end
  | _, _, _, _ => TUndef
  end.

(** ** The same methods of the chain solver (KdlSolver/ICartesianSolverImpl.cpp) *)
Record chain_solvers := Cks { c_vel : chain -> list R -> twist -> option (list R);
                              c_dyn : chain -> list R -> list R -> list R -> list wrench -> option (list R) }.

(** 169-221: diffInvKin.  The result of forward kinematics is not tested there; it cannot
    fail, the joint vector having been sized with the chain ([None] below). *)
Definition diffInvKin (k : chain_solvers) (s : solver) (q xdot : list R) (fr : ref_frame) : tresult :=
  match joints_in (sv_chain s) q with
  | None => TUndef
  | Some qr =>
      let x := match fr with
               | BASE_FRAME => Some (vectorToTwist xdot)
               | TCP_FRAME => option_map (fun h => trot (fM h) (vectorToTwist xdot)) (chain_fwd_kin (sv_chain s) qr)
               | OTHER_FRAME => None
               end in
      match x with
      | None => TFalse
      | Some x => match c_vel k (sv_chain s) qr x with None => TFalse | Some qd => TTrue (map radToDeg qd) end
      end
  end.

(** 225-264: invDyn, gravity only *)
Definition gravityDyn (k : chain_solvers) (s : solver) (q : list R) : tresult :=
  match joints_in (sv_chain s) q with
  | None => TUndef
  | Some qr =>
      let z := repeat 0 (nr_of_joints (sv_chain s)) in
      match c_dyn k (sv_chain s) qr z z (repeat wrench_zero (length (sv_chain s))) with None => TFalse | Some t => TTrue t end
  end.

(** 268-338: invDyn; [TUndef] also for back() of an empty vector *)
Definition invDyn (k : chain_solvers) (s : solver) (q qdot qdotdot ftip : list R) (fr : ref_frame) : tresult :=
  match joints_in (sv_chain s) q, joints_in (sv_chain s) qdot, joints_in (sv_chain s) qdotdot with
  | Some qr, Some qd, Some qdd =>
      let w := match fr with
               | BASE_FRAME => option_map (fun h => wrot (mT (fM h)) (vectorToWrench ftip)) (chain_fwd_kin (sv_chain s) qr)
               | TCP_FRAME => Some (vectorToWrench ftip)
               | OTHER_FRAME => None
               end in
      match w with
      | None => TFalse
      | Some w =>
          match length (sv_chain s) with
          | O => TUndef
          | S n => match c_dyn k (sv_chain s) qr qd qdd (repeat wrench_zero n ++ [w]) with None => TFalse | Some t => TTrue t end
          end
      end
  | _, _, _ => TUndef
  end.
