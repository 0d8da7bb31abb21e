(** Model of the dynamics of the chain solver (YarpPlugins/KdlSolver): masses and gravity of the configuration, and the solver of
    KDL behind invDyn, ChainIdSolver_RNE (trusted, like Kdl.v: its sources are not in /repo).

    Kinematics and the two methods invDyn are those of Config.v and Tree.v.  Joints have no inertia of their own: the code never gives
    them one. *)
From Coq Require Import Reals List Bool Arith.
From Verif Require Import Kdl KdlRot KinRep KdlSolver Ft Config Tree.
Import ListNotations.
Open Scope R_scope.
Local Notation length := List.length.

(** ** KDL: twists and wrenches *)
(** operator+(Twist, Twist), operator*(Twist, double), operator+(Wrench, Wrench) *)
Definition tadd (a b : twist) : twist := Tw (vadd (t_vel a) (t_vel b)) (vadd (t_rot a) (t_rot b)).
Definition tscale (k : R) (a : twist) : twist := Tw (vscale k (t_vel a)) (vscale k (t_rot a)).
Definition wadd (a b : wrench) : wrench := Wr (vadd (w_force a) (w_force b)) (vadd (w_torque a) (w_torque b)).
(** operator*(Twist, Twist), operator*(Twist, Wrench), dot(Twist, Wrench) *)
Definition tcross (a b : twist) : twist := Tw (vadd (cross (t_rot a) (t_vel b)) (cross (t_vel a) (t_rot b))) (cross (t_rot a) (t_rot b)).
Definition twcross (a : twist) (w : wrench) : wrench := Wr (cross (t_rot a) (w_force w)) (vadd (cross (t_rot a) (w_torque w)) (cross (t_vel a) (w_force w))).
Definition tdot (a : twist) (w : wrench) : R := dot (t_vel a) (w_force w) + dot (t_rot a) (w_torque w).
(** Frame::Inverse(Twist), operator*(Frame, Wrench) *)
Definition ftwist_inv (x : frame) (a : twist) : twist := Tw (mv (mT (fM x)) (vsub (t_vel a) (cross (fp x) (t_rot a)))) (mv (mT (fM x)) (t_rot a)).
Definition fwrench (x : frame) (w : wrench) : wrench := let f := mv (fM x) (w_force w) in Wr f (vadd (mv (fM x) (w_torque w)) (cross (fp x) f)).

(** Joint::twist(qdot), Segment::twist(q, qdot) *)
Definition joint_twist (j : joint) (qdot : R) : twist :=
  let d := vscale (j_scale j * qdot) (joint_axis j) in
  match j_type j with
  | JRotAxis | JRotX | JRotY | JRotZ => Tw vzero d
  | JTransAxis | JTransX | JTransY | JTransZ => Tw d vzero
  | JNone => twist_zero
  end.
Definition segment_twist (s : segment) (q qdot : R) : twist :=
  let t := joint_twist (s_joint s) qdot in
  Tw (vadd (t_vel t) (cross (t_rot t) (mv (fM (joint_pose (s_joint s) q)) (fp (s_tip s))))) (t_rot t).

(** ** KDL::RigidBodyInertia: mass, mass times centre, and inertia about the origin of the frame *)
Record rb_inertia := Rb { rb_m : R; rb_h : vec; rb_i : mat }.
(** RigidBodyInertia(m, c, RotationalInertia(ixx, iyy, izz)): Ic - m (c c' - c.c 1) *)
Definition mk_inertia (m : R) (c i : vec) : rb_inertia :=
  let k := dot c c in
  Rb m (vscale m c)
    (M (vx i - m * (vx c * vx c - k)) (- (m * (vx c * vy c))) (- (m * (vx c * vz c)))
       (- (m * (vy c * vx c))) (vy i - m * (vy c * vy c - k)) (- (m * (vy c * vz c)))
       (- (m * (vz c * vx c))) (- (m * (vz c * vy c))) (vz i - m * (vz c * vz c - k))).
(** RigidBodyInertia::Zero() *)
Definition inertia_zero : rb_inertia := mk_inertia 0 vzero vzero.
(** operator*(RigidBodyInertia, Twist) *)
Definition rb_mul (i : rb_inertia) (t : twist) : wrench :=
  Wr (vsub (vscale (rb_m i) (t_vel t)) (cross (rb_h i) (t_rot t))) (vadd (mv (rb_i i) (t_rot t)) (cross (rb_h i) (t_vel t))).

(** ** KDL::ChainIdSolver_RNE::CartToJnt.  From the velocity and the acceleration of a segment, both in its own frame, to the
    wrench that the next ones exert on it and the torques of their joints.  The two loops of KDL, from the root to the end and back,
    are the two halves of this recursion; additions are in another order, and the velocity of the root, 0, is added to that of the first
    segment.  [None]: E_SIZE_MISMATCH. *)
Fixpoint rne_pass (v a : twist) (bs : list (segment * rb_inertia * wrench)) (q qd qdd : list R) : option (wrench * list R) :=
  match bs with
  | [] => match q, qd, qdd with [], [], [] => Some (wrench_zero, []) | _, _, _ => None end
  | (s, i, fe) :: bs' =>
      let go x xd xdd moves q' qd' qdd' :=
        let X := segment_pose s x in
        let vj := trot (mT (fM X)) (segment_twist s x xd) in
        let S1 := trot (mT (fM X)) (segment_twist s x 1) in
        let v' := tadd (ftwist_inv X v) vj in
        let a' := tadd (tadd (ftwist_inv X a) (tscale xdd S1)) (tcross v' vj) in
        match rne_pass v' a' bs' q' qd' qdd' with
        | None => None
        | Some (f, ts) =>
            let f' := wadd (wsub (wadd (rb_mul i a') (twcross v' (rb_mul i v'))) fe) f in
            Some (fwrench X f', if (moves : bool) then tdot S1 f' :: ts else ts)
        end in
      if is_fixed (s_joint s) then go 0 0 0 false q qd qdd
      else match q, qd, qdd with
           | x :: q', xd :: qd', xdd :: qdd' => go x xd xdd true q' qd' qdd'
           | _, _, _ => None
           end
  end.

(** the inertias of the segments; those of the tools, at the end, are zero *)
Definition loaded (is : list rb_inertia) (c : chain) (fs : list wrench) : list (segment * rb_inertia * wrench) :=
  combine (combine c (firstn (length c) is ++ repeat inertia_zero (length c - length is))) fs.
(** the whole, with gravity [g] *)
Definition rne (g : vec) (is : list rb_inertia) (c : chain) (q qd qdd : list R) (fs : list wrench) : option (list R) :=
  if Nat.eqb (length fs) (length c) then option_map snd (rne_pass twist_zero (Tw (vneg g) vzero) (loaded is c fs) q qd qdd) else None.

(** ** The configuration *)
(** the elements mass, cog and inertia of a group link_i *)
Record mass_group := Mg { mg_mass : option R; mg_cog : option (list R); mg_inertia : option (list R) }.
Definition three (l : list R) : vec := V (nth 0 l 0) (nth 1 l 0) (nth 2 l 0).
(** DeviceDriverImpl.cpp 214-238: the inertia of a link (those of xyzLink_i, 259-285, have none) *)
Definition link_inertia (g : link_groups) (m : mass_group) : rb_inertia :=
  match lg_dh g with
  | Some _ =>
      match mg_mass m, mg_cog m, mg_inertia m with
      | Some x, Some c, Some i => mk_inertia x (three c) (three i)
      | _, _, _ => inertia_zero
      end
  | None => inertia_zero
  end.
(** the inertias of the links that are added to the chain (a link of unknown type is not) *)
Definition link_inertias (gs : list link_groups) (ms : nat -> mass_group) (n0 : nat) : list rb_inertia :=
  concat (map (fun p => match link_segment (snd p) with Some (Some _) => [link_inertia (snd p) (ms (fst p))] | _ => [] end) (combine (seq n0 (length gs)) gs)).
(** DeviceDriverImpl.cpp 172-183: gravity; [Some None]: it is there but not a list (then a null pointer is used) *)
Definition cfg_gravity (g : option (option (list R))) : option vec :=
  match g with
  | None => Some (V 0 0 (- (981 / 100)))
  | Some None => None
  | Some (Some l) => Some (three l)
  end.
(** 198-307: all the segments with their inertias *)
Definition cfg_inertias (c : chain_cfg) (ms : nat -> mass_group) : list rb_inertia :=
  inertia_zero :: link_inertias (ch_links 1 c) ms 0 ++ [inertia_zero].
(** 307: the solver for the dynamics (the one for velocities is any) *)
Definition dyn_solvers (vel : chain -> list R -> twist -> option (list R)) (g : vec) (is : list rb_inertia) : chain_solvers :=
  Cks vel (fun c q qd qdd fs => rne g is c q qd qdd fs).
(** 172-183 and 198-307 together: the solver for the dynamics of the configuration; [None]: a null pointer is used *)
Definition dyn_open (vel : chain -> list R -> twist -> option (list R)) (c : chain_cfg) (ms : nat -> mass_group) (g : option (option (list R))) : option chain_solvers :=
  option_map (fun g => dyn_solvers vel g (cfg_inertias c ms)) (cfg_gravity g).
