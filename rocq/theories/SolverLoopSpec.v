(** Histories of calls to the solver device, and what is asked of its inverse kinematics.  Nothing here models code. *)
From Coq Require Import Reals List.
From Verif Require Import Kdl Screw Selector Builder KinRep KdlSolver IkPoseSpec.
Import ListNotations.
Open Scope R_scope.

(** appendLink, restoreOriginalChain and invKin, in any order *)
Inductive call := Tool (o : tool_op) (draws : list R) | Ask (xd q : list R) (fr : ref_frame).
Definition call_step (fuel : nat) find (s : solver) (c : call) : outcome solver :=
  match c with
  | Tool o draws => tool_step fuel s (o, draws)
  | Ask xd q fr => match invKin find s xd q fr with Some (_, s') => Returns s' | None => Undefined end
  end.
Fixpoint call_run (fuel : nat) find (s : solver) (cs : list call) : outcome solver :=
  match cs with
  | [] => Returns s
  | c :: cs' => match call_step fuel find s c with Returns s' => call_run fuel find s' cs' | Running => Running | Undefined => Undefined end
  end.

(** the pose requested by invKin *)
Definition asked (s : solver) (xd qg : list R) (fr : ref_frame) (target : frame) : Prop :=
  match fr with
  | BASE_FRAME => target = vectorToFrame xd
  | TCP_FRAME => exists f qr, joints_in (sv_chain s) qg = Some qr /\ chain_fwd_kin (sv_chain s) qr = Some f /\ target = fmul f (vectorToFrame xd)
  | OTHER_FRAME => False
  end.

(** the problem in use is that of an arm with shoulder r, wrist w and points x, y on and off its last axis *)
Definition wrist_problem (s : solver) (r w x y : vec) : Prop :=
  wrist_arm (exps (ik_poe (sv_ik s))) r w x y /\
  ik_steps (sv_ik s) = wrist_steps (exps (ik_poe (sv_ik s))) r w x y.
