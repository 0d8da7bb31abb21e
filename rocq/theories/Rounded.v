(** Parts of BasicCartesianControl on doubles: the checks of joint limits, the fail-fast check of
    a trajectory, the speeds of a joint move and the streamed twist, with the rounding of every
    operation, infinities and NaN.

    Simplified: the vectors indexed by joint have one entry per joint (the models of the same
    functions on real numbers, Bcc.v and BccMore.v, say what happens when they do not); log
    messages are left out. *)
From Coq Require Import List ZArith Bool.
From Verif Require Import F64.
Import ListNotations.

(** the limits of a joint: position (qMin, qMax) and velocity (qdotMin, qdotMax), as filled in by
    DeviceDriverImpl.cpp 142-172 *)
Record joint := Joint { qMin : f64; qMax : f64; qdotMin : f64; qdotMax : f64 }.

(** BasicCartesianControl.cpp 33: epsilon, 1e-5 *)
Definition epsilon : f64 := lit 1 5.

(** BasicCartesianControl.cpp 26-30: sgn *)
Definition sgn (v : f64) : Z := (if fltb fzero v then 1 else 0) - (if fltb v fzero then 1 else 0).

(** BasicCartesianControl.cpp 61, 80: the test for being near or beyond a limit *)
Definition near_limit (j : joint) (v : f64) : bool :=
  fltb v (fadd (qMin j) epsilon) || fltb (fsub (qMax j) epsilon) v.

(** BasicCartesianControl.cpp 53-71: checkJointLimits(q) *)
Fixpoint checkJointLimits (js : list joint) (q : list f64) : bool :=
  match js, q with
  | j :: js', v :: q' => if near_limit j v then false else checkJointLimits js' q'
  | _, _ => true
  end.

(** BasicCartesianControl.cpp 75-97: checkJointLimits(q, qdot) *)
Fixpoint checkJointLimitsMoving (js : list joint) (q qdot : list f64) : bool :=
  match js, q, qdot with
  | j :: js', v :: q', w :: qdot' =>
      if near_limit j v && (sgn (fsub v (fdiv (fadd (qMax j) (qMin j)) (ofZ 2))) =? sgn w)%Z then false
      else checkJointLimitsMoving js' q' qdot'
  | _, _, _ => true
  end.

(** BasicCartesianControl.cpp 103-119: the test of the velocity of one joint *)
Definition too_fast (j : joint) (v : f64) : bool :=
  if feqb (qdotMin j) fzero then fltb (qdotMax j) (fabs v)
  else fltb v (qdotMin j) || fltb (qdotMax j) v.

(** BasicCartesianControl.cpp 101-123: checkJointVelocities *)
Fixpoint checkJointVelocities (js : list joint) (qdot : list f64) : bool :=
  match js, qdot with
  | j :: js', v :: qdot' => if too_fast j v then false else checkJointVelocities js' qdot'
  | _, _ => true
  end.

(** std::transform with std::minus, BasicCartesianControl.cpp 166 *)
Fixpoint differences (a b : list f64) : list f64 :=
  match a, b with x :: a', y :: b' => fsub x y :: differences a' b' | _, _ => [] end.

(** std::max *)
Definition fmax (a b : f64) : f64 := if fltb a b then b else a.

(** A trajectory: its duration and the pose (six numbers) at a time; an oracle here, KDL's
    trajectories are modelled on real numbers in KdlTraj.v *)
Record trajectory := Trajectory { duration : f64; pose_at : f64 -> list f64 }.

(** yarp::os::PeriodicThread::getPeriod() after setPeriod(cmcPeriodMs * 0.001)
    (DeviceDriverImpl.cpp 212), halved: BasicCartesianControl.cpp 135 *)
Definition timestep (cmcPeriodMs : Z) : f64 := fmul (fmul (ofZ cmcPeriodMs) (lit 1 3)) (lit 5 1).

(** BasicCartesianControl.cpp 151-177: the loop of doFailFastChecks, started with [interval] and
    [oldQ]. [invKin] is the solver's inverse kinematics: target, initial guess, answer. The answer
    is [None] when the loop is not over after [fuel] rounds. *)
Section Scan.
  Variable invKin : list f64 -> list f64 -> option (list f64).
  Variable js : list joint.
  Variable ts : list trajectory.

  Definition pose_of (t : f64) : list f64 := concat (map (fun tr => pose_at tr t) ts).

  Fixpoint scan (fuel : nat) (step maxDuration interval : f64) (oldQ : list f64) : option bool :=
    match fuel with
    | O => None
    | S n =>
        if fleb interval maxDuration then
          match invKin (pose_of interval) oldQ with
          | None => Some false
          | Some newQ =>
              if negb (checkJointLimits js newQ) || negb (checkJointVelocities js (differences newQ oldQ)) then Some false
              else scan n step maxDuration (fadd interval step) newQ
          end
        else Some true
    end.

  (** BasicCartesianControl.cpp 144-149: maxDuration *)
  Definition maxDuration : f64 := fold_left (fun m tr => fmax m (duration tr)) ts fzero.

  (** BasicCartesianControl.cpp 127-180: doFailFastChecks *)
  Definition doFailFastChecks (fuel : nat) (cmcPeriodMs : Z) (initialQ : list f64) : option bool :=
    match ts with
    | [] => Some false
    | _ :: _ => scan fuel (timestep cmcPeriodMs) maxDuration fzero initialQ
    end.
End Scan.

(** BasicCartesianControl.cpp 279-303: the first loop of computeIsocronousSpeeds: distances and
    longest time. [refs]: the reference speeds of the joints. *)
Definition distance (r q qd : f64) : f64 := if fleb r fzero then fzero else fabs (fsub qd q).
Fixpoint distances (refs q qd : list f64) : list f64 :=
  match refs, q, qd with
  | r :: refs', x :: q', y :: qd' => distance r x y :: distances refs' q' qd'
  | _, _, _ => []
  end.
Fixpoint longest (refs deltas : list f64) (maxTime : f64) : f64 :=
  match refs, deltas with
  | r :: refs', d :: deltas' =>
      longest refs' deltas'
        (if fleb r fzero then maxTime
         else if fltb maxTime (fdiv d r) then fdiv d r else maxTime)
  | _, _ => maxTime
  end.

(** BasicCartesianControl.cpp 271-325: computeIsocronousSpeeds: whether the robot will move, and
    the speeds *)
Definition computeIsocronousSpeeds (refs q qd : list f64) : bool * list f64 :=
  let deltas := distances refs q qd in
  let maxTime := longest refs deltas fzero in
  (negb (feqb maxTime fzero),
   map (fun d => if feqb maxTime fzero then fzero else fdiv d maxTime) deltas).

(** ICartesianControlImpl.cpp 475-511: twist, once the state and the control modes have been
    found right; what is sent to the motors with velocityMove: the zeros of the StateWatcher when
    a step fails (484), the velocities of the solver otherwise (507). [encoders] is [None] when
    they cannot be read, [diffInvKin] is the solver's: joints, twist, answer. *)
Definition twist (diffInvKin : list f64 -> list f64 -> option (list f64)) (js : list joint)
    (encoders : option (list f64)) (xdot : list f64) : list f64 :=
  let zeros := map (fun _ => fzero) js in
  match encoders with
  | None => zeros
  | Some currentQ =>
      match diffInvKin currentQ xdot with
      | None => zeros
      | Some qdot =>
          if negb (checkJointLimitsMoving js currentQ qdot) || negb (checkJointVelocities js qdot) then zeros
          else qdot
      end
  end.

(** The last step of the solvers' diffInvKin: the pseudoinverse of the Jacobian times the twist
    (AsibotSolver/ICartesianSolverImpl.cpp 446-449, `qdot = pinv(Ja) * xdotd`). Each row of the
    product is added up from the left, starting with zero. *)
Definition row_times (row x : list f64) : f64 :=
  fold_left (fun s p => fadd s (fmul (fst p) (snd p))) (combine row x) fzero.
Definition matrix_times (m : list (list f64)) (x : list f64) : list f64 := map (fun row => row_times row x) m.
