(** What the properties of the controller together with the solver device talk about. *)
From Coq Require Import Reals ZArith List Bool.
From Verif Require Import Kdl KdlRot Vocab Bcc BccSpec BccLineSpec Sys.
From Verif Require Screw Subproblems Selector Builder KinRep KinRepSpec AsibotSpec KdlSolver Tree TreeSpec IkPoseSpec SolverLoopSpec.
Import ListNotations.
Open Scope R_scope.
Local Notation length := List.length.

(** the pose of the end of the device's chain, tools included, with the joints at [q] degrees *)
Definition stands (s : KdlSolver.solver) (q : list R) (f : frame) : Prop :=
  chain_fwd_kin (KdlSolver.sv_chain s) (map KinRep.degToRad q) = Some f.
(** the same, without tools *)
Definition stands_bare (s : KdlSolver.solver) (q : list R) (f : frame) : Prop :=
  chain_fwd_kin (KdlSolver.sv_original s) (map KinRep.degToRad q) = Some f.

(** every link of the chain is rigid, whatever the coordinate of its joint *)
Definition rigid_links (c : chain) : Prop := Forall (fun g => forall x, rigid (segment_pose g x)) c.

(** the device has been opened with the chain [c], and has then answered the calls [tr] *)
Definition opened (d : device) (c : chain) (tr : list event) (s : KdlSolver.solver) : Prop :=
  exists draws sel s0, KdlSolver.sv_open (dev_fuel d) draws c sel = Builder.Returns (Some s0) /\ served d s0 tr s.

(** the device does not warn that a target may be out of reach (code 100 of its closed-form solver, shown to nobody else) *)
Definition unwarned (d : device) (s : KdlSolver.solver) (e : event) (s' : KdlSolver.solver) : Prop :=
  answers d s e s' /\
  match e with (InvKin _ _ _, a) => ok a = true -> KdlSolver.ik_error (KdlSolver.sv_ik s') = KdlSolver.E_NOERROR | _ => True end.

(** [f] is [target] up to the tolerance of C16 for the arm with shoulder [r], wrist [w] and the points [x], [y] *)
Definition within_tolerance (s : KdlSolver.solver) (r w x y : vec) (f target : frame) : Prop :=
  let k := KdlSolver.sv_ik s in let p := KdlSolver.ik_poe k in
  forall a b c, let z := IkPoseSpec.combination w (vsub x w) (vsub y w) a b c in
    Subproblems.dist (IkPoseSpec.carried p (if KdlSolver.ik_rev k then finv f else f) z) (IkPoseSpec.carried p (if KdlSolver.ik_rev k then finv target else target) z)
      <= IkPoseSpec.wrist_bound (Screw.exps p) r w x y a b c.

(** the pose asked for, told in the frame of the base or in that of the tool with the joints at [g] *)
Definition seen_from (s : KdlSolver.solver) (frame : Z) (g : list R) (told target : Kdl.frame) : Prop :=
  (frame = BASE_FRAME /\ target = told) \/ (frame = TCP_FRAME /\ exists f, stands s g f /\ target = fmul f told).

(** the tool set last, none at first *)
Fixpoint tool_in_use (t : frame) (h : list entry) : frame :=
  match h with
  | [] => t
  | (OTool x, _, _) :: h' => tool_in_use (pose_at x 0) h'
  | _ :: h' => tool_in_use t h'
  end.

(** tools are described by six numbers *)
Definition six_tools (h : list entry) : Prop := Forall (fun e => match fst (fst e) with OTool x => length x = 6%nat | _ => True end) h.

(** commands other than the change of tool *)
Definition no_tool (o : op) : Prop := match o with OTool _ => False | _ => True end.

(** joints that start at [q] and move with the velocities [w] carry the tool with the velocity [t] *)
Definition carries (s : KdlSolver.solver) (q w : list R) (t : KdlRot.twist) : Prop :=
  exists p, (forall u, stands s (TreeSpec.moving q w u) (p u)) /\ AsibotSpec.velocity_of p 0 t.
(** a velocity told in the frame of the base, or in that of the tool at [f] *)
Definition turned (frame : Z) (f : Kdl.frame) (t : KdlRot.twist) : KdlRot.twist :=
  if Z.eqb frame TCP_FRAME then Tw (mv (fM f) (t_vel t)) (mv (fM f) (t_rot t)) else t.
(** [e] is what separates [g] from [f]: a translation and, unless they are half a turn apart, a rotation *)
Definition separates (f g : frame) (e : KdlRot.twist) : Prop :=
  fp g = vadd (fp f) (t_vel e) /\ (KinRepSpec.regular_log (mm (mT (fM f)) (fM g)) -> fM g = mm (rot_of (t_rot e)) (fM f)).
(** KDL's velocity solver gives one velocity per joint *)
Definition one_per_joint (d : device) (s : KdlSolver.solver) : Prop :=
  forall q t w, Tree.c_vel (dev_kdl d) (KdlSolver.sv_chain s) q t = Some w -> length w = nr_of_joints (KdlSolver.sv_chain s).

(** the joint positions [q] are within the limits of the robot, up to the tolerance of the solver *)
Definition within_robot_limits (robot : nat -> option (R * R * R * R)) (n : nat) (q : list R) : Prop :=
  length q = n /\ forall j, (j < n)%nat -> exists lo hi vlo vhi, robot j = Some (lo, hi, vlo, vhi) /\
    lo - KinRep.radToDeg kdl_eps <= nth j q 0 <= hi + KinRep.radToDeg kdl_eps.
