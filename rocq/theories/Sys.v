(** The Cartesian controller attached to the chain solver device. *)
From Coq Require Import Reals ZArith List Bool.
From Verif Require Import Kdl Vocab Bcc.
From Verif Require Selector Builder KdlSolver Tree Config.
Import ListNotations.
Open Scope R_scope.

(** BasicCartesianControl/DeviceDriverImpl.cpp 191-201: the device opened, and its view as
    ICartesianSolver.  What the model of the device leaves open: the strategy of the selector,
    KDL's velocity and dynamics solvers, the bound and the draws of the search for a
    closed-form solution (see Builder.v). *)
Record device := Dev {
  dev_find : Selector.selector -> list R -> option (bool * Selector.selector);
  dev_kdl : Tree.chain_solvers;
  dev_fuel : nat }.

(** ICartesianSolver.h 26-30: reference_frame, a number in the calls *)
Definition frame_named (f : Z) : KdlSolver.ref_frame :=
  if Z.eqb f BASE_FRAME then KdlSolver.BASE_FRAME else if Z.eqb f TCP_FRAME then KdlSolver.TCP_FRAME else KdlSolver.OTHER_FRAME.

(** the boolean result and the output vector of a method; undefined behaviour answers nothing *)
Definition told (r : Tree.tresult) (a : answer) : Prop :=
  match r with
  | Tree.TUndef => False
  | Tree.TFalse => ok a = false
  | Tree.TTrue x => ok a = true /\ vals a = x
  end.
Definition told_true (r : option (list R)) (a : answer) : Prop := exists x, r = Some x /\ ok a = true /\ vals a = x.

(** KdlSolver/ICartesianSolverImpl.cpp, all of it: the device in state [s] gives the answer to
    the call, and is left in state [s'].  Calls to other devices leave it alone. *)
Definition answers (d : device) (s : KdlSolver.solver) (e : event) (s' : KdlSolver.solver) : Prop :=
  match e with
  | (GetNumTcps, a) => s' = s /\ modes a = [1%Z]
  | (FwdKin q, a) => s' = s /\ told_true (KdlSolver.fwdKin s q) a
  | (InvKin x q f, a) =>
      exists r, KdlSolver.invKin (dev_find d) s x q (frame_named f) = Some (r, s') /\
        match r with Some q' => ok a = true /\ vals a = q' | None => ok a = false end
  | (DiffInvKin q x f, a) => s' = s /\ told (Tree.diffInvKin (dev_kdl d) s q x (frame_named f)) a
  | (PoseDiff x y, a) => s' = s /\ ok a = true /\ vals a = KdlSolver.poseDiff x y
  | (ChangeOrigin x y, a) => s' = s /\ ok a = true /\ vals a = KdlSolver.changeOrigin x y
  | (InvDyn q, a) => s' = s /\ told (Tree.gravityDyn (dev_kdl d) s q) a
  | (InvDynForce q v w f g, a) => s' = s /\ told (Tree.invDyn (dev_kdl d) s q v w f (frame_named g)) a
  | (AppendLink x, a) => ok a = true /\ exists draws, KdlSolver.appendLink (dev_fuel d) draws x s = Builder.Returns s'
  | (RestoreOriginalChain, a) => ok a = true /\ exists draws, KdlSolver.restoreOriginalChain (dev_fuel d) draws s = Builder.Returns s'
  | _ => s' = s
  end.

(** one call after another; the controller holds no copy of what the device knows *)
Inductive through (P : KdlSolver.solver -> event -> KdlSolver.solver -> Prop) : KdlSolver.solver -> list event -> KdlSolver.solver -> Prop :=
| through_nil s : through P s [] s
| through_cons s s1 s2 e tr : P s e s1 -> through P s1 tr s2 -> through P s (e :: tr) s2.
Definition served (d : device) := through (answers d).

(** BasicCartesianControl/DeviceDriverImpl.cpp 126-128, 182-184: the options of the solver are those of
    the controller, with the limits of the robot.  Simplified: the numbers are passed on as they are, not as text. *)
Definition with_limits (sc : Config.solver_cfg) (mins maxs : list R) : Config.solver_cfg :=
  Config.Sc (Config.sc_ikVel sc) (Config.sc_ik sc) (Config.sc_ikPos sc) (Config.sc_strategy sc) (Config.sc_weights sc) (Some mins) (Some maxs).
(** KdlSolver/DeviceDriverImpl.cpp 404-420: the strategy and its limits *)
Definition selects (d : device) (ik : Config.ik_pos) (sel : Selector.selector) : Prop :=
  match ik with
  | Config.IkLeast (lo, hi) => dev_find d = Selector.find_least /\ sel = Selector.new_selector lo hi
  | Config.IkGait (lo, hi) => dev_find d = Selector.find_gait /\ sel = Selector.new_selector lo hi
  | _ => False
  end.
(** BasicCartesianControl/DeviceDriverImpl.cpp 21-220 with KdlSolver as its solver, set to the closed form
    (its default): open has returned true, and leaves the controller with [c] and [s] and the solver in [v].
    The configuration has no limits, so that the robot is asked for them. *)
Definition assembled (d : device) (robot : nat -> option (R * R * R * R)) (cc : Config.chain_cfg) (sc : Config.solver_cfg)
    (c : cfg) (s : st) (v : KdlSolver.solver) : Prop :=
  exists g dur cmc wait_ posd failfast frame timed n refs ch ik sel draws,
    open g dur cmc wait_ posd failfast frame timed n refs false robot (nr_of_joints ch) true = Some (c, s) /\
    Config.kdl_open cc (with_limits sc (qMin c) (qMax c)) = Some (ch, ik) /\ selects d ik sel /\
    KdlSolver.sv_open (dev_fuel d) draws ch sel = Builder.Returns (Some v).
