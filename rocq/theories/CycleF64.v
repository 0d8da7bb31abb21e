(** BasicCartesianControl on doubles, continued: the parameters, KDL's trapezoidal velocity profile and
    the control cycles of movl and movv. The models of the same functions on real numbers are in Bcc.v,
    BccMore.v and KdlTraj.v.

    Simplified: the calls to the robot succeed and the control modes are right (Bcc.v and BccMore.v model
    their failures); the vectors have the lengths that they should. *)
From Coq Require Import List ZArith Bool.
From Flocq Require Import IEEE754.BinarySingleNaN.
From Verif Require Import F64 Rounded Vocab.
Import ListNotations.

(** ** Parameters *)

(** C++'s conversion of a double to int: the fraction is discarded; [None] is undefined behaviour, for NaN,
    infinities and integers that are not between -2^31 and 2^31 - 1 *)
Definition to_int (x : f64) : option Z :=
  let keep z := if (-2147483648 <=? z)%Z && (z <=? 2147483647)%Z then Some z else None in
  match x with
  | B754_zero _ => Some 0%Z
  | B754_finite s m e _ =>
      let a := if (0 <=? e)%Z then (Z.pos m * 2 ^ e)%Z else (Z.pos m / 2 ^ (- e))%Z in
      keep (if s then - a else a)%Z
  | _ => None
  end.

(** BasicCartesianControl.hpp 194-213: the members that setParameter changes *)
Record params := Params { p_gain : f64; p_duration : f64; p_cmc : Z; p_wait : Z; p_frame : Z; p_stream : Z }.

(** the keys: VOCAB_CC_CONFIG_GAIN and so on (ICartesianControl.h); [Other]: any other vocab *)
Inductive pkey := Gain | TrajDuration | CmcPeriod | WaitPeriod | Frame | StreamingCmd | Other.

(** a call: false; true and the new parameters; or undefined behaviour *)
Inductive result := Refused | Set_to (p : params) | Undefined.

(** ICartesianControlImpl.cpp 573-637: setParameter, while not controlling (otherwise it is refused, 575-579).
    [period_ok] is the answer of yarp::os::PeriodicThread::setPeriod, [preset_ok] those of
    presetStreamingCommand. *)
Definition setParameter (period_ok : bool) (preset_ok : Z -> bool) (p : params) (k : pkey) (value : f64) : result :=
  match k with
  | Gain => if fltb value fzero then Refused else Set_to (Params value (p_duration p) (p_cmc p) (p_wait p) (p_frame p) (p_stream p))
  | TrajDuration => if fleb value fzero then Refused else Set_to (Params (p_gain p) value (p_cmc p) (p_wait p) (p_frame p) (p_stream p))
  | CmcPeriod =>
      if negb period_ok then Refused
      else match to_int value with
           | None => Undefined
           | Some z => Set_to (Params (p_gain p) (p_duration p) z (p_wait p) (p_frame p) (p_stream p))
           end
  | WaitPeriod =>
      if fleb value fzero then Refused
      else match to_int value with
           | None => Undefined
           | Some z => Set_to (Params (p_gain p) (p_duration p) (p_cmc p) z (p_frame p) (p_stream p))
           end
  | Frame =>
      if negb (feqb value (ofZ BASE_FRAME)) && negb (feqb value (ofZ TCP_FRAME)) then Refused
      else match to_int value with
           | None => Undefined
           | Some z => Set_to (Params (p_gain p) (p_duration p) (p_cmc p) (p_wait p) z (p_stream p))
           end
  | StreamingCmd =>
      match to_int value with
      | None => Undefined
      | Some z => if preset_ok z then Set_to (Params (p_gain p) (p_duration p) (p_cmc p) (p_wait p) (p_frame p) z) else Refused
      end
  | Other => Refused
  end.

(** one call after another; [None]: one of them is undefined behaviour *)
Fixpoint settings (p : params) (calls : list (bool * (Z -> bool) * pkey * f64)) : option params :=
  match calls with
  | [] => Some p
  | (period_ok, preset_ok, k, value) :: calls' =>
      match setParameter period_ok preset_ok p k value with
      | Undefined => None
      | Refused => settings p calls'
      | Set_to p' => settings p' calls'
      end
  end.

(** ** KDL::VelocityProfile_Trap: velocityprofile_trap.cpp (orocos_kdl, not in the repository) *)
Record trap := Trap { t_start : f64; t_end : f64; t_total : f64; t_1 : f64; t_2 : f64;
  a_1 : f64; a_2 : f64; a_3 : f64; b_1 : f64; b_2 : f64; b_3 : f64; c_1 : f64; c_2 : f64; c_3 : f64 }.

(** SetProfile(pos1, pos2) *)
Definition trap_set (maxvel maxacc pos1 pos2 : f64) : trap :=
  let two := ofZ 2 in
  let s := if fltb (fsub pos2 pos1) fzero then ofZ (-1) else ofZ 1 in
  let t := fdiv maxvel maxacc in
  let x1 := fdiv (fmul (fmul s maxacc) (fmul t t)) two in
  let dT := fdiv (fsub (fsub pos2 pos1) (fmul two x1)) (fmul s maxvel) in
  let go := fltb fzero dT in
  let t1 := if go then t else fsqrt (fdiv (fdiv (fsub pos2 pos1) s) maxacc) in
  let d := if go then fadd (fmul two t) dT else fmul t1 two in
  let t2 := if go then fsub d t else t1 in
  let a3 := fdiv (fmul s maxacc) two in let a2 := fzero in let a1 := pos1 in
  let b3 := fzero in
  let b2 := fsub (fadd a2 (fmul (fmul two a3) t1)) (fmul (fmul two b3) t1) in
  let b1 := fsub (fadd a1 (fmul t1 (fadd a2 (fmul a3 t1)))) (fmul t1 (fadd b2 (fmul t1 b3))) in
  let c3 := fdiv (fmul (fneg s) maxacc) two in
  let c2 := fsub (fadd b2 (fmul (fmul two b3) t2)) (fmul (fmul two c3) t2) in
  let c1 := fsub (fadd b1 (fmul t2 (fadd b2 (fmul b3 t2)))) (fmul t2 (fadd c2 (fmul t2 c3))) in
  Trap pos1 pos2 d t1 t2 a1 a2 a3 b1 b2 b3 c1 c2 c3.

(** SetProfileDuration(pos1, pos2, newduration) *)
Definition trap_duration (maxvel maxacc pos1 pos2 newduration : f64) : trap :=
  let p := trap_set maxvel maxacc pos1 pos2 in
  let k := fdiv (t_total p) newduration in
  if fltb (ofZ 1) k then p
  else Trap (t_start p) (t_end p) newduration (fdiv (t_1 p) k) (fdiv (t_2 p) k)
         (a_1 p) (fmul (a_2 p) k) (fmul (a_3 p) (fmul k k)) (b_1 p) (fmul (b_2 p) k) (fmul (b_3 p) (fmul k k))
         (c_1 p) (fmul (c_2 p) k) (fmul (c_3 p) (fmul k k)).

(** Pos(time), Vel(time) *)
Definition trap_pos (p : trap) (t : f64) : f64 :=
  if fltb t fzero then t_start p
  else if fltb t (t_1 p) then fadd (a_1 p) (fmul t (fadd (a_2 p) (fmul (a_3 p) t)))
  else if fltb t (t_2 p) then fadd (b_1 p) (fmul t (fadd (b_2 p) (fmul (b_3 p) t)))
  else if fleb t (t_total p) then fadd (c_1 p) (fmul t (fadd (c_2 p) (fmul (c_3 p) t)))
  else t_end p.
Definition trap_vel (p : trap) (t : f64) : f64 :=
  if fltb t fzero then fzero
  else if fltb t (t_1 p) then fadd (a_2 p) (fmul (fmul (ofZ 2) (a_3 p)) t)
  else if fltb t (t_2 p) then fadd (b_2 p) (fmul (fmul (ofZ 2) (b_3 p)) t)
  else if fleb t (t_total p) then fadd (c_2 p) (fmul (fmul (ofZ 2) (c_3 p)) t)
  else fzero.

(** ** Trajectories *)

(** KDL::Trajectory: Duration, Pos and Vel, the poses and twists as the six numbers of KdlVectorConverter *)
Record moving := Moving { m_duration : f64; m_pos : f64 -> list f64; m_vel : f64 -> list f64 }.

(** ICartesianControlImpl.cpp 216-222: a line with the duration of the parameters, with KDL::Trajectory_Segment.
    The KDL::Path_Line is an oracle: its length, the pose at a length, and the twist at a length and a speed
    (KdlTraj.v models them on real numbers). *)
Record path := Path { len : f64; pose_on : f64 -> list f64; twist_on : f64 -> f64 -> list f64 }.
Definition line (w : path) (seconds : f64) : moving :=
  let p := trap_duration (ofZ 10) (ofZ 10) fzero (len w) seconds in
  Moving (t_total p) (fun t => pose_on w (trap_pos p t)) (fun t => twist_on w (trap_pos p t) (trap_vel p t)).

(** ** Control cycles *)

(** what a cycle does: it stops control after a failure (the StateWatcher, PeriodicThreadImpl.cpp 27), it ends
    the movement, it sends velocities (velocityMove) or positions (setPositions) *)
Inductive cycle := Fails | Over | Velocities (qdot : list f64) | Positions (q : list f64).

Section Cycles.
  (** the solver's functions: forward kinematics; difference of poses; differential inverse kinematics in the
      reference frame of the movement; inverse kinematics *)
  Variable fwdKin : list f64 -> option (list f64).
  Variable poseDiff : list f64 -> list f64 -> list f64.
  Variable diffInvKin : list f64 -> list f64 -> option (list f64).
  Variable invKin : list f64 -> list f64 -> option (list f64).
  Variable js : list joint.
  Variable p : params.
  Variable ms : list moving.

  (** PeriodicThreadImpl.cpp 147-151, 276-280: the control law; 1000.0 / cmcPeriodMs is infinite for a period of 0 *)
  Definition law (x xdot : f64) : f64 := fadd (fmul x (fmul (p_gain p) (fdiv (ofZ 1000) (ofZ (p_cmc p))))) xdot.
  Fixpoint laws (diff xdot : list f64) : list f64 :=
    match diff, xdot with x :: diff', v :: xdot' => law x v :: laws diff' xdot' | _, _ => [] end.

  (** PeriodicThreadImpl.cpp 120-181 and 246-300, from the pose and twist at time [t] on *)
  Definition command (t : f64) (q : list f64) : cycle :=
    match fwdKin q with
    | None => Fails
    | Some currentX =>
        match diffInvKin q (laws (poseDiff (concat (map (fun m => m_pos m t) ms)) currentX) (concat (map (fun m => m_vel m t) ms))) with
        | None => Fails
        | Some commandQdot => if checkJointVelocities js commandQdot then Velocities commandQdot else Fails
        end
    end.

  (** PeriodicThreadImpl.cpp 110-181, 185-234, 238-300 *)
  Definition ended (t : f64) : bool := existsb (fun m => fltb (m_duration m) t) ms.
  Definition handleMovlVel (t : f64) (q : list f64) : cycle := if ended t then Over else command t q.
  Definition handleMovlPosd (t : f64) (q : list f64) : cycle :=
    if ended t then Over
    else match invKin (concat (map (fun m => m_pos m t) ms)) q with None => Fails | Some commandQ => Positions commandQ end.
  Definition handleMovv (t : f64) (q : list f64) : cycle := command t q.

  (** PeriodicThreadImpl.cpp 18-77: run, the encoders read; [movv]: VOCAB_CC_MOVV_CONTROLLING rather than
      VOCAB_CC_MOVL_CONTROLLING; [posd]: usePosdMovl; [t]: the time since the movement started *)
  Definition run (movv posd : bool) (t : f64) (q : list f64) : cycle :=
    if negb (checkJointLimits js q) then Fails
    else if movv then handleMovv t q else if posd then handleMovlPosd t q else handleMovlVel t q.
End Cycles.
