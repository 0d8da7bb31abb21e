(** Model of how the solver devices read a kinematic configuration
    (YarpPlugins/KdlSolver/DeviceDriverImpl.cpp, YarpPlugins/KdlTreeSolver/DeviceDriverImpl.cpp).

    The configuration is the tree of groups that YARP parses from the file: the search for
    the file, the merge with the command line and the conversion of its texts to numbers are
    not modelled, nor are masses and inertias here (see Dyn.v for those of KdlSolver), nor the
    numeric parameters of KDL's solvers (precision, iterations, weights of the LMA and of the
    velocity solvers).  A missing number has been replaced by its default, 0. *)
From Coq Require Import Reals List Bool Arith ZArith String.
From Verif Require Import Kdl KinRep.
Import ListNotations.
Open Scope R_scope.
Local Notation S := Datatypes.S.
Local Notation length := List.length.

(** KDL::Frame::DH(a, alpha, d, theta) (trusted, like Kdl.v) *)
Definition dh_frame (a alpha d theta : R) : frame :=
  let ct := cos theta in let st := sin theta in let ca := cos alpha in let sa := sin alpha in
  F (M ct (- (st * ca)) (st * sa) st (ct * ca) (- (ct * sa)) 0 sa ca) (V (a * ct) (a * st) d).

(** the groups link_i (offset, D, A, alpha) and xyzLink_i (x, y, z, Type) *)
Record dh_link := Dh { dh_offset : R; dh_d : R; dh_a : R; dh_alpha : R }.
Record xyz_link := Xyz { xl_x : R; xl_y : R; xl_z : R; xl_type : string }.
Record link_groups := Lg { lg_dh : option dh_link; lg_xyz : option xyz_link }.

(** KdlSolver/DeviceDriverImpl.cpp 52-79, KdlTreeSolver/DeviceDriverImpl.cpp 45-73:
    getMatrixFromProperties on a 4x4 identity, and lines 186-195, 292-301 (tree: 188-198, 298-307) that take the frame
    from the matrix: entries in row-major order, those not given as in the identity *)
Definition entry (l : list R) (i j : nat) : R := nth (4 * i + j) l (if Nat.eqb i j then 1 else 0).
Definition matrix_frame (H : option (list R)) : frame :=
  let l := match H with Some l => l | None => [] end in
  F (M (entry l 0 0) (entry l 0 1) (entry l 0 2)
       (entry l 1 0) (entry l 1 1) (entry l 1 2)
       (entry l 2 0) (entry l 2 1) (entry l 2 2))
    (V (entry l 0 3) (entry l 1 3) (entry l 2 3)).

(** KDL::Joint(type), KDL::Joint(type, scale) *)
Definition axis_joint (t : jtype) (scale : R) : joint := J t scale 0 vzero vzero.

(** KdlSolver/DeviceDriverImpl.cpp 259-285, KdlTreeSolver/DeviceDriverImpl.cpp 265-291 *)
Definition type_joint (t : string) : option joint :=
  if String.eqb t "RotX" then Some (axis_joint JRotX 1)
  else if String.eqb t "RotY" then Some (axis_joint JRotY 1)
  else if String.eqb t "RotZ" then Some (axis_joint JRotZ 1)
  else if String.eqb t "InvRotX" then Some (axis_joint JRotX (-1))
  else if String.eqb t "InvRotY" then Some (axis_joint JRotY (-1))
  else if String.eqb t "InvRotZ" then Some (axis_joint JRotZ (-1))
  else if String.eqb t "TransX" then Some (axis_joint JTransX 1)
  else if String.eqb t "TransY" then Some (axis_joint JTransY 1)
  else if String.eqb t "TransZ" then Some (axis_joint JTransZ 1)
  else if String.eqb t "InvTransX" then Some (axis_joint JTransX (-1))
  else if String.eqb t "InvTransY" then Some (axis_joint JTransY (-1))
  else if String.eqb t "InvTransZ" then Some (axis_joint JTransZ (-1))
  else None.

(** KdlSolver/DeviceDriverImpl.cpp 198-289, KdlTreeSolver/DeviceDriverImpl.cpp 201-295: one
    pass of the loop over the links.  [None]: open returns false.  [Some None]: nothing is
    added to the chain.  The boolean tells which of the two groups was used. *)
Definition link_segment (g : link_groups) : option (option (bool * segment)) :=
  match lg_dh g with
  | Some l => Some (Some (true, mk_segment (axis_joint JRotZ 1)
      (dh_frame (dh_a l) (degToRad (dh_alpha l)) (dh_d l) (degToRad (dh_offset l)))))
  | None =>
      match lg_xyz g with
      | None => None
      | Some l =>
          Some (option_map (fun j => (false, mk_segment j (ftrans (V (xl_x l) (xl_y l) (xl_z l))))) (type_joint (xl_type l)))
      end
  end.

(** the whole loop, with the index of each link *)
Fixpoint link_segments (i : nat) (gs : list link_groups) : option (list (nat * bool * segment)) :=
  match gs with
  | [] => Some []
  | g :: gs' =>
      match link_segment g, link_segments (S i) gs' with
      | Some o, Some ss => Some (match o with Some (b, s) => (i, b, s) :: ss | None => ss end)
      | _, _ => None
      end
  end.

(** the groups a chain is read from; [ch_link i]: link_i and xyzLink_i *)
Record chain_cfg := Ch { ch_numLinks : option Z; ch_H0 : option (list R); ch_link : nat -> link_groups; ch_HN : option (list R) }.

(** the links read, [default]: DEFAULT_NUM_LINKS (KdlSolver) or 0 (KdlTreeSolver) *)
Definition ch_links (default : Z) (c : chain_cfg) : list link_groups :=
  map (ch_link c) (seq 0 (Z.to_nat (match ch_numLinks c with Some n => n | None => default end))).

(** KDL::Joint(KDL::Joint::None) *)
Definition none_joint : joint := axis_joint JNone 1.

(** KdlSolver/DeviceDriverImpl.cpp 169-301: the chain; [None]: open returns false *)
Definition cfg_chain (c : chain_cfg) : option chain :=
  match link_segments 0 (ch_links 1 c) with
  | None => None
  | Some ss => Some ([mk_segment none_joint (matrix_frame (ch_H0 c))] ++ map snd ss ++ [mk_segment none_joint (matrix_frame (ch_HN c))])
  end.

(** KdlSolver/DeviceDriverImpl.cpp 98-143: retrieveJointLimits for [n] joints; [None] for its
    return value false: a missing list, a wrong size, a minimum above its maximum *)
Fixpoint limits_ok (mins maxs : list R) : bool :=
  match mins, maxs with
  | a :: mins', b :: maxs' => negb (Rltb (degToRad b) (degToRad a)) && limits_ok mins' maxs'
  | _, _ => true
  end.
Definition retrieveJointLimits (n : nat) (mins maxs : option (list R)) : option (list R * list R) :=
  match mins, maxs with
  | Some mins, Some maxs =>
      if negb (Nat.eqb (length maxs) n && Nat.eqb (length mins) n) then None
      else if limits_ok mins maxs then Some (map degToRad mins, map degToRad maxs) else None
  | _, _ => None
  end.

(** ikVel, ikPos (or ik), invKinStrategy, weights, mins, maxs *)
Record solver_cfg := Sc { sc_ikVel : option string; sc_ik : option string; sc_ikPos : option string; sc_strategy : option string;
                          sc_weights : option (list R); sc_mins : option (list R); sc_maxs : option (list R) }.
Definition or_default {A} (o : option A) (d : A) : A := match o with Some a => a | None => d end.

(** what inverse kinematics is set to, with the limits it is given *)
Inductive ik_pos := IkLma | IkNrjl (lim : list R * list R) | IkLeast (lim : list R * list R) | IkGait (lim : list R * list R) | IkId (lim : list R * list R).

(** KdlSolver/DeviceDriverImpl.cpp 148-451: open.  [None]: it returns false.  For the closed
    form (IkLeast, IkGait) the end of open is [KdlSolver.sv_open]: it also fails if there is
    no closed form. *)
Definition kdl_open (c : chain_cfg) (sc : solver_cfg) : option (chain * ik_pos) :=
  match cfg_chain c with
  | None => None
  | Some k =>
      let ikVel := or_default (sc_ikVel sc) "pinv"%string in
      if negb (String.eqb ikVel "pinv" || String.eqb ikVel "wdls") then None
      else
        let ikPos := or_default (sc_ikPos sc) (or_default (sc_ik sc) "st"%string) in
        let lim := retrieveJointLimits (nr_of_joints k) (sc_mins sc) (sc_maxs sc) in
        option_map (pair k)
          (if String.eqb ikPos "lma" then
             if Nat.eqb (length (or_default (sc_weights sc) [1; 1; 1; / 10; / 10; / 10])) 6 then Some IkLma else None
           else if String.eqb ikPos "nrjl" then option_map IkNrjl lim
           else if String.eqb ikPos "st" then
             match lim with
             | None => None
             | Some lim =>
                 let strategy := or_default (sc_strategy sc) "leastOverallAngularDisplacement"%string in
                 if String.eqb strategy "leastOverallAngularDisplacement" then Some (IkLeast lim)
                 else if String.eqb strategy "humanoidGait" then Some (IkGait lim)
                 else None
             end
           else if String.eqb ikPos "id" then option_map IkId lim
           else None)
  end.
