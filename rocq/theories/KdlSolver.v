(** Model of the solver device built on KDL (YarpPlugins/KdlSolver): tools, changes of
    origin, forward kinematics, the closed-form solver and the one-step solver.

    Not modelled: the numeric solvers of KDL (LMA, NR_JL, the velocity and the dynamics
    solvers), the mutex, the logger. *)
From Coq Require Import Reals List Bool Arith ZArith.
From Verif Require Import Kdl KdlRot Trig Screw Subproblems IkProblem Selector Builder KinRep.
Import ListNotations.
Open Scope R_scope.
Local Notation S := Datatypes.S.

(** ** KDL *)
(** KDL::diff(Rotation, Rotation), KDL::diff(Frame, Frame) with dt = 1 (trusted, like Kdl.v) *)
Definition rot_diff (a b : mat) : vec := mv a (GetRot (mm (mT a) b)).
Definition frame_diff (a b : frame) : twist := Tw (vsub (fp b) (fp a)) (rot_diff (fM a) (fM b)).

(** ** The closed-form solver *)

(** ChainIkSolverPos_ST.hpp 83-87 and the inherited member [error] *)
Record st_ik := StIk { ik_poe : poe; ik_steps : list sub; ik_rev : bool; ik_error : Z; ik_sel : selector }.

(** ChainIkSolverPos_ST.hpp 71-78, KDL::SolverI::E_NOERROR *)
Definition E_NOERROR : Z := 0%Z.
Definition E_SOLUTION_NOT_FOUND : Z := (-100)%Z.
Definition E_OUT_OF_LIMITS : Z := (-101)%Z.
Definition E_NOT_REACHABLE : Z := 100%Z.

Definition set_error (k : st_ik) (e : Z) : st_ik := StIk (ik_poe k) (ik_steps k) (ik_rev k) e (ik_sel k).
Definition set_sel (k : st_ik) (s : selector) : st_ik := StIk (ik_poe k) (ik_steps k) (ik_rev k) (ik_error k) s.

(** ChainIkSolverPos_ST.cpp 36-60: CartToJnt; the joints are written on the last line only
    ([None]: left as they were).  The whole result is [None] if a subproblem divides by zero
    or an index leaves its vector.  [find]: the strategy of the selector. *)
Definition cart_to_jnt (find : selector -> list R -> option (bool * selector)) (k : st_ik) (q_init : list R) (p_in : frame)
  : option (Z * option (list R) * st_ik) :=
  if Z.eqb (ik_error k) E_SOLUTION_NOT_FOUND then Some (ik_error k, None, k)
  else
    match ik_solve (ik_poe k) (map sub_step (ik_steps k)) (ik_rev k) p_in with
    | None => None
    | Some (ret, sols) =>
        match configure (ik_sel k) sols with
        | None => None
        | Some (false, s) => Some (E_OUT_OF_LIMITS, None, set_error (set_sel k s) E_OUT_OF_LIMITS)
        | Some (true, s) =>
            match find s q_init with
            | None => None
            | Some (false, s') => Some (E_OUT_OF_LIMITS, None, set_error (set_sel k s') E_OUT_OF_LIMITS)
            | Some (true, s') =>
                match retrievePose s' with
                | None => None
                | Some q => let e := if ret then E_NOERROR else E_NOT_REACHABLE in Some (e, Some q, set_error (set_sel k s') e)
                end
            end
        end
    end.

(** ChainIkSolverPos_ST.cpp 64-78: updateInternalDataStructures.  [fuel], [draws]: see Builder.v *)
Definition st_update (fuel : nat) (draws : list R) (c : chain) (k : st_ik) : outcome st_ik :=
  match build fuel draws (fromChain c) with
  | Running => Running
  | Undefined => Undefined
  | Returns None => Returns (set_error k E_SOLUTION_NOT_FOUND)
  | Returns (Some (p, ss, rev)) => Returns (StIk p ss rev (ik_error k) (ik_sel k))
  end.

(** ChainIkSolverPos_ST.cpp 82-102: create; the selector comes from the factory *)
Definition st_create (fuel : nat) (draws : list R) (c : chain) (sel : selector) : outcome (option st_ik) :=
  match build fuel draws (fromChain c) with
  | Running => Running
  | Undefined => Undefined
  | Returns None => Returns None
  | Returns (Some (p, ss, rev)) => Returns (Some (StIk p ss rev E_NOERROR sel))
  end.

(** ** The device, configured with the closed-form solver *)

(** KdlSolver.hpp: chain, originalChain, ikSolverPos *)
Record solver := Sv { sv_chain : chain; sv_original : chain; sv_ik : st_ik }.

(** DeviceDriverImpl.cpp 396-428, 448: the end of open *)
Definition sv_open (fuel : nat) (draws : list R) (c : chain) (sel : selector) : outcome (option solver) :=
  match st_create fuel draws c sel with
  | Running => Running
  | Undefined => Undefined
  | Returns None => Returns None
  | Returns (Some k) => Returns (Some (Sv c c k))
  end.

(** the joint without motion of ICartesianSolverImpl.cpp 39 *)
Definition fixed_joint : joint := J JNone 1 0 vzero vzero.

(** ICartesianSolverImpl.cpp 33-47: appendLink (returns true) *)
Definition appendLink (fuel : nat) (draws : list R) (x : list R) (s : solver) : outcome solver :=
  let c := sv_chain s ++ [mk_segment fixed_joint (vectorToFrame x)] in
  match st_update fuel draws c (sv_ik s) with
  | Running => Running
  | Undefined => Undefined
  | Returns k => Returns (Sv c (sv_original s) k)
  end.

(** ICartesianSolverImpl.cpp 51-63: restoreOriginalChain (returns true) *)
Definition restoreOriginalChain (fuel : nat) (draws : list R) (s : solver) : outcome solver :=
  match st_update fuel draws (sv_original s) (sv_ik s) with
  | Running => Running
  | Undefined => Undefined
  | Returns k => Returns (Sv (sv_original s) (sv_original s) k)
  end.

(** ICartesianSolverImpl.cpp 67-76: changeOrigin (returns true) *)
Definition changeOrigin (x_old_obj x_new_old : list R) : list R :=
  frameToVector (fmul (vectorToFrame x_new_old) (vectorToFrame x_old_obj)).

(** ICartesianSolverImpl.cpp 82-87: the first joints of the vector, in radians; [None]: it is
    shorter than the chain *)
Definition joints_in (c : chain) (q : list R) : option (list R) :=
  if Nat.leb (nr_of_joints c) (length q) then Some (map degToRad (firstn (nr_of_joints c) q)) else None.

(** ICartesianSolverImpl.cpp 80-99: fwdKin (returns true) *)
Definition fwdKin (s : solver) (q : list R) : option (list R) :=
  match joints_in (sv_chain s) q with
  | None => None
  | Some qr => option_map frameToVector (chain_fwd_kin (sv_chain s) qr)
  end.

(** ICartesianSolverImpl.cpp 103-112: poseDiff (returns true) *)
Definition poseDiff (xLhs xRhs : list R) : list R :=
  twistToVector (frame_diff (vectorToFrame xRhs) (vectorToFrame xLhs)).

(** ICartesianSolver.h: reference_frame *)
Inductive ref_frame := BASE_FRAME | TCP_FRAME | OTHER_FRAME.

(** ICartesianSolverImpl.cpp 116-165: invKin; [None] in the result is the return value false *)
Definition invKin find (s : solver) (xd qGuess : list R) (fr : ref_frame) : option (option (list R) * solver) :=
  match joints_in (sv_chain s) qGuess with
  | None => None
  | Some qr =>
      let target :=
        match fr with
        | BASE_FRAME => Some (Some (vectorToFrame xd))
        | TCP_FRAME => option_map (fun f => Some (fmul f (vectorToFrame xd))) (chain_fwd_kin (sv_chain s) qr)
        | OTHER_FRAME => Some None
        end in
      match target with
      | None => None
      | Some None => Some (None, s)
      | Some (Some h) =>
          match cart_to_jnt find (sv_ik s) qr h with
          | None => None
          | Some (ret, q, k) =>
              let s' := Sv (sv_chain s) (sv_original s) k in
              if Z.ltb ret 0 then Some (None, s')
              else match q with Some q => Some (Some (map radToDeg q), s') | None => None end
          end
      end
  end.

(** histories of tool changes *)
Inductive tool_op := Append (x : list R) | Restore.
Definition tool_step (fuel : nat) (s : solver) (o : tool_op * list R) : outcome solver :=
  match fst o with Append x => appendLink fuel (snd o) x s | Restore => restoreOriginalChain fuel (snd o) s end.
Fixpoint tool_run (fuel : nat) (s : solver) (os : list (tool_op * list R)) : outcome solver :=
  match os with
  | [] => Returns s
  | o :: os' => match tool_step fuel s o with Returns s' => tool_run fuel s' os' | Running => Running | Undefined => Undefined end
  end.

(** ** The one-step solver *)

(** ChainIkSolverPos_ID.hpp: nj, qMin, qMax *)
Record id_ik := IdIk { id_nj : nat; id_min : list R; id_max : list R }.

Definition dot6 (a b : list R) : R := fold_right Rplus 0 (map (fun ab => fst ab * snd ab) (combine a b)).
Definition add6 (a b : list R) : list R := map (fun ab => fst ab + snd ab) (combine a b).
(** J^T e and J v, with J given by its columns *)
Definition jacT (J : list (list R)) (e : list R) : list R := map (fun col => dot6 col e) J.
Definition jacv (J : list (list R)) (v : list R) : list R :=
  fold_right add6 (repeat 0 6) (map (fun cv => map (Rmult (snd cv)) (fst cv)) (combine J v)).

(** ChainIkSolverPos_ID.cpp 80-103: computeDiffInvKin.  [None] is NaN: 0 / 0 in alpha makes
    every joint NaN (the numerator vanishes whenever the denominator does). *)
Definition computeDiffInvKin (J : list (list R)) (e : list R) : list (option R) :=
  let JJTe := jacv J (jacT J e) in
  match fdiv (dot6 e JJTe) (dot6 JJTe JJTe) with
  | None => map (fun _ => None) J
  | Some alpha => map (fun x => Some (alpha * x)) (jacT J e)
  end.

(** ChainIkSolverPos_ID.cpp 59-73: the comparisons are false of NaN *)
Definition clamp_low (lo : R) (x : option R) : option R :=
  match x with Some v => Some (if Rltb v lo then lo else v) | None => None end.
Definition clamp_high (hi : R) (x : option R) : option R :=
  match x with Some v => Some (if Rltb hi v then hi else v) | None => None end.
Definition zip_with {A B C} (f : A -> B -> C) (l : list A) (m : list B) : list C := map (fun ab => f (fst ab) (snd ab)) (combine l m).

(** KDL::SolverI and ChainIkSolverPos_ID.hpp 69-73 *)
Definition E_NOT_UP_TO_DATE : Z := (-3)%Z.
Definition E_SIZE_MISMATCH : Z := (-4)%Z.
Definition E_FK_FAILED : Z := (-100)%Z.
Definition E_JAC_FAILED : Z := (-101)%Z.

Definition twist_list (t : twist) : list R := twistToVector t.

(** ChainIkSolverPos_ID.cpp 29-76: CartToJnt; the code and the joints.  [jac]: KDL's
    ChainJntToJacSolver, by columns ([None]: it fails). *)
Definition id_cart_to_jnt (jac : chain -> list R -> option (list (list R))) (k : id_ik) (c : chain)
  (q_init : list R) (p_in : frame) (q_out : list (option R)) : Z * list (option R) :=
  if negb (Nat.eqb (id_nj k) (nr_of_joints c)) then (E_NOT_UP_TO_DATE, q_out)
  else if negb (Nat.eqb (id_nj k) (length q_init)) || negb (Nat.eqb (id_nj k) (length q_out))
       || negb (Nat.eqb (id_nj k) (length (id_min k))) || negb (Nat.eqb (id_nj k) (length (id_max k)))
  then (E_SIZE_MISMATCH, q_out)
  else
    match chain_fwd_kin c q_init with
    | None => (E_FK_FAILED, q_out)
    | Some f =>
        match jac c q_init with
        | None => (E_JAC_FAILED, q_out)
        | Some cols =>
            let dq := computeDiffInvKin cols (twist_list (frame_diff f p_in)) in
            let q := zip_with (fun a d => option_map (Rplus a) d) q_init dq in
            (E_NOERROR, zip_with clamp_high (id_max k) (zip_with clamp_low (id_min k) q))
        end
    end.

(** ChainIkSolverPos_ID.cpp 107-115: updateInternalDataStructures; [dmin], [dmax]:
    numeric_limits<double>::min() and max() *)
Definition keep_resize (l : list R) (n : nat) (d : R) : list R := firstn n l ++ repeat d (n - length l).
Definition id_update (dmin dmax : R) (c : chain) (k : id_ik) : id_ik :=
  IdIk (nr_of_joints c) (keep_resize (id_min k) (nr_of_joints c) dmin) (keep_resize (id_max k) (nr_of_joints c) dmax).
