(** Model of the dynamics of the tree solver (YarpPlugins/KdlTreeSolver): masses and gravity of the configuration, and the solver of
    KDL behind invDyn, TreeIdSolver_RNE (trusted, like Kdl.v: its sources are not in /repo).

    Kinematics and the two methods invDyn are those of Tree.v.  Joints have no inertia of their own: the code never gives them one. *)
From Coq Require Import Reals List Bool Arith String.
From Verif Require Import Kdl KdlRot KinRep Ft Config Tree Dyn.
Import ListNotations.
Open Scope R_scope.
Local Notation length := List.length.
Local Notation concat := List.concat.

(** ** KDL::TreeIdSolver_RNE::CartToJnt *)
(** the number that a segment takes from a vector of joints; 0 if it has no joint *)
Definition joint_value (n : node) (q : list R) : R := if is_fixed (s_joint (nd_seg n)) then 0 else nth (nd_q n) q 0.
(** the velocity and the acceleration of the segment with this name, in its own frame; those of the root are 0 and minus gravity.  KDL
    visits the tree from the root; here they are computed anew for each name.  All parents are in the tree (addSegment). *)
Fixpoint tree_motion (g : vec) (t : tree) (q qd qdd : list R) (name : string) : twist * twist :=
  match t with
  | [] => (twist_zero, Tw (vneg g) vzero)
  | n :: t' =>
      if String.eqb (nd_name n) name then
        let x := joint_value n q in
        let X := segment_pose (nd_seg n) x in
        let vj := trot (mT (fM X)) (segment_twist (nd_seg n) x (joint_value n qd)) in
        let S1 := trot (mT (fM X)) (segment_twist (nd_seg n) x 1) in
        let p := tree_motion g t' q qd qdd (nd_parent n) in
        let v := tadd (ftwist_inv X (fst p)) vj in
        (v, tadd (tadd (ftwist_inv X (snd p)) (tscale (joint_value n qdd) S1)) (tcross v vj))
      else tree_motion g t' q qd qdd name
  end.
(** the torques, with the numbers of their joints, from the leaves to the root.  [acc]: the wrenches that the segments visited already
    exert on their parents.  KDL visits the children of a segment before it; here all the segments added later. *)
Fixpoint tree_efforts (g : vec) (is : string -> rb_inertia) (fe : string -> wrench) (t : tree) (q qd qdd : list R) (acc : string -> wrench) : list (nat * R) :=
  match t with
  | [] => []
  | n :: t' =>
      let x := joint_value n q in
      let X := segment_pose (nd_seg n) x in
      let S1 := trot (mT (fM X)) (segment_twist (nd_seg n) x 1) in
      let p := tree_motion g t q qd qdd (nd_name n) in
      let i := is (nd_name n) in
      let f := wadd (wsub (wadd (rb_mul i (snd p)) (twcross (fst p) (rb_mul i (fst p)))) (fe (nd_name n))) (acc (nd_name n)) in
      let rest := tree_efforts g is fe t' q qd qdd (fun m => if String.eqb m (nd_parent n) then wadd (acc m) (fwrench X f) else acc m) in
      if is_fixed (s_joint (nd_seg n)) then rest else (nd_q n, tdot S1 f) :: rest
  end.
(** the whole, with gravity [g], inertias [is] and external wrenches [fe] by the names of the segments (none: zero); [None]: E_SIZE_MISMATCH *)
Definition tree_rne (g : vec) (is : list (string * rb_inertia)) (t : tree) (q qd qdd : list R) (fe : list (string * wrench)) : option (list R) :=
  let n := tree_joints t in
  if Nat.eqb (length q) n && Nat.eqb (length qd) n && Nat.eqb (length qdd) n
  then let es := tree_efforts g (fun m => or_default (lookup is m) inertia_zero) (fun m => or_default (lookup fe m) wrench_zero) t q qd qdd (fun _ => wrench_zero) in
       Some (map (fun j => match find (fun e => Nat.eqb (fst e) j) es with Some e => snd e | None => 0 end) (seq 0 n))
  else None.

(** ** The configuration *)
(** DeviceDriverImpl.cpp 201-241: the inertias of the segments of a chain, by their names; those of xyzLink_i, 242-294, and of H0 and
    HN have none *)
Definition chain_inertias (c : tree_chain) (ms : nat -> mass_group) : list (string * rb_inertia) :=
  map (fun i => let g := ch_link (tc_chain c) i in
         (segment_name (tc_name c) i (match lg_dh g with Some _ => true | None => false end), link_inertia g (ms i)))
      (seq 0 (length (ch_links 0 (tc_chain c)))).
Definition tree_inertias (cs : list tree_chain) (ms : string -> nat -> mass_group) : list (string * rb_inertia) :=
  concat (map (fun c => chain_inertias c (ms (tc_name c))) cs).
(** DeviceDriverImpl.cpp 156-167 and 344: the solver for the dynamics, with the gravity of the file (the same code as in KdlSolver); the
    other two are any.  [None]: a null pointer is used *)
Definition tree_dyn_open (k : tree_solvers) (s : tsolver) (cs : list tree_chain) (ms : string -> nat -> mass_group) (g : option (option (list R))) : option tree_solvers :=
  option_map (fun g => Tks (k_ik k) (k_vel k) (tree_rne g (tree_inertias cs ms) (ts_tree s))) (cfg_gravity g).
