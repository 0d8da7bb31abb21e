(** Model of BasicCartesianControl (YarpPlugins/BasicCartesianControl).

    The robot, the solver, the clock and KDL's trajectory objects are the environment: each
    use of them is a [call], and a method of the controller is a program ([prog]) that
    issues calls, reads and updates the controller's own variables, and ends with a result
    or in trouble (an access out of bounds, a non-finite number, an out-of-range conversion,
    or more iterations than allowed).  Every answer to every call is possible.  Logging is
    left out.  The parameters read by the methods but fixed once the device is open are kept
    apart ([cfg]). *)
From Coq Require Import Reals ZArith List Bool.
From Verif Require Import Kdl Vocab.
Import ListNotations.
Open Scope R_scope.
Local Notation S := Datatypes.S.

(** ** The environment *)

(** movl and movv trajectories: KDL::Trajectory_Segment over a KDL::Path_Line between two
    poses with a trapezoidal profile of given duration, or from a pose along a twist
    (ICartesianControlImpl.cpp 213-226, 271-285).  What KDL computes from them, starting with
    the conversions of the six numbers and the path length in line 282, is asked through [TrajDuration], [TrajPos] and [TrajVel]. *)
Inductive traj :=
| Line (from target : list R) (seconds : R)
| Along (from twist : list R).

Inductive call :=
(* yarp::dev::IEncoders *)
| GetEncoders | GetEncoderSpeeds | GetEncoderAccelerations
(* IControlMode *)
| GetControlModes | SetControlModes (ids : list nat) (mode : Z)
(* IPositionControl *)
| CheckMotionDone | GetRefSpeeds | SetRefSpeeds (v : list R) | PositionMove (q : list R) | Stop
(* IVelocityControl, IPositionDirect, ITorqueControl *)
| VelocityMove (v : list R) | SetPositions (q : list R) | SetRefTorques (t : list R)
(* IPreciselyTimed, yarp::os::Time, SystemClock, PeriodicThread *)
| LastInputStamp | Now | Sleep (seconds : R) | GetPeriod | SetPeriod (seconds : R)
(* ICartesianSolver *)
| GetNumTcps
| FwdKin (q : list R) | InvKin (x q : list R) (frame : Z) | DiffInvKin (q xdot : list R) (frame : Z)
| PoseDiff (lhs rhs : list R) | ChangeOrigin (x_old_obj x_new_old : list R)
| InvDyn (q : list R) | InvDynForce (q qdot qdotdot f : list R) (frame : Z)
| RestoreOriginalChain | AppendLink (x : list R)
(* KDL *)
| TrajDuration (t : traj) | TrajPos (t : traj) (time : R) | TrajVel (t : traj) (time : R).

(** what a call gives back: the boolean result and, depending on the call, numbers,
    integers (control modes, a count), the "done" flag or one number *)
Record answer := Ans { ok : bool; vals : list R; modes : list Z; done : bool; num : R }.

Notation event := (call * answer)%type.

(** ** The controller's variables (BasicCartesianControl.hpp 192-225) *)
Record cfg := Cfg {
  numJoints : nat;
  usePosdMovl : bool;
  enableFailFast : bool;
  preciselyTimed : bool;  (* iPreciselyTimed is not null *)
  qMin : list R; qMax : list R; qdotMin : list R; qdotMax : list R; qRefSpeeds : list R }.

Record st := St {
  currentState : Z;
  streamingCommand : Z;
  gain : R;
  duration : R;
  cmcPeriodMs : Z;
  waitPeriodMs : Z;
  referenceFrame : Z;
  vmoStored : list R;
  movementStartTime : R;
  trajectories : list traj;
  fd : list R;
  encoderErrors : Z;
  cmcSuccess : bool }.

(** BasicCartesianControl.cpp 44-49: setCurrentState (both variables under one lock) *)
Definition setCurrentState (v : Z) (s : st) : st :=
  St v VOCAB_CC_NOT_SET (gain s) (duration s) (cmcPeriodMs s) (waitPeriodMs s) (referenceFrame s)
     (vmoStored s) (movementStartTime s) (trajectories s) (fd s) (encoderErrors s) (cmcSuccess s).
(** assignments to single variables *)
Definition set_streaming (v : Z) (s : st) : st :=
  St (currentState s) v (gain s) (duration s) (cmcPeriodMs s) (waitPeriodMs s) (referenceFrame s)
     (vmoStored s) (movementStartTime s) (trajectories s) (fd s) (encoderErrors s) (cmcSuccess s).
Definition set_gain (v : R) (s : st) : st :=
  St (currentState s) (streamingCommand s) v (duration s) (cmcPeriodMs s) (waitPeriodMs s) (referenceFrame s)
     (vmoStored s) (movementStartTime s) (trajectories s) (fd s) (encoderErrors s) (cmcSuccess s).
Definition set_duration (v : R) (s : st) : st :=
  St (currentState s) (streamingCommand s) (gain s) v (cmcPeriodMs s) (waitPeriodMs s) (referenceFrame s)
     (vmoStored s) (movementStartTime s) (trajectories s) (fd s) (encoderErrors s) (cmcSuccess s).
Definition set_cmcPeriodMs (v : Z) (s : st) : st :=
  St (currentState s) (streamingCommand s) (gain s) (duration s) v (waitPeriodMs s) (referenceFrame s)
     (vmoStored s) (movementStartTime s) (trajectories s) (fd s) (encoderErrors s) (cmcSuccess s).
Definition set_waitPeriodMs (v : Z) (s : st) : st :=
  St (currentState s) (streamingCommand s) (gain s) (duration s) (cmcPeriodMs s) v (referenceFrame s)
     (vmoStored s) (movementStartTime s) (trajectories s) (fd s) (encoderErrors s) (cmcSuccess s).
Definition set_frame (v : Z) (s : st) : st :=
  St (currentState s) (streamingCommand s) (gain s) (duration s) (cmcPeriodMs s) (waitPeriodMs s) v
     (vmoStored s) (movementStartTime s) (trajectories s) (fd s) (encoderErrors s) (cmcSuccess s).
Definition set_vmoStored (v : list R) (s : st) : st :=
  St (currentState s) (streamingCommand s) (gain s) (duration s) (cmcPeriodMs s) (waitPeriodMs s) (referenceFrame s)
     v (movementStartTime s) (trajectories s) (fd s) (encoderErrors s) (cmcSuccess s).
Definition set_startTime (v : R) (s : st) : st :=
  St (currentState s) (streamingCommand s) (gain s) (duration s) (cmcPeriodMs s) (waitPeriodMs s) (referenceFrame s)
     (vmoStored s) v (trajectories s) (fd s) (encoderErrors s) (cmcSuccess s).
Definition set_trajectories (v : list traj) (s : st) : st :=
  St (currentState s) (streamingCommand s) (gain s) (duration s) (cmcPeriodMs s) (waitPeriodMs s) (referenceFrame s)
     (vmoStored s) (movementStartTime s) v (fd s) (encoderErrors s) (cmcSuccess s).
Definition set_fd (v : list R) (s : st) : st :=
  St (currentState s) (streamingCommand s) (gain s) (duration s) (cmcPeriodMs s) (waitPeriodMs s) (referenceFrame s)
     (vmoStored s) (movementStartTime s) (trajectories s) v (encoderErrors s) (cmcSuccess s).
Definition set_encoderErrors (v : Z) (s : st) : st :=
  St (currentState s) (streamingCommand s) (gain s) (duration s) (cmcPeriodMs s) (waitPeriodMs s) (referenceFrame s)
     (vmoStored s) (movementStartTime s) (trajectories s) (fd s) v (cmcSuccess s).
Definition set_cmcSuccess (v : bool) (s : st) : st :=
  St (currentState s) (streamingCommand s) (gain s) (duration s) (cmcPeriodMs s) (waitPeriodMs s) (referenceFrame s)
     (vmoStored s) (movementStartTime s) (trajectories s) (fd s) (encoderErrors s) v.

(** ** Programs *)
Inductive trouble := OutOfBounds | NotFinite | BadCast | Endless.

Inductive prog (A : Type) :=
| Ret (a : A)
| Stuck (t : trouble)
| Call (c : call) (k : answer -> prog A)
| Get (k : st -> prog A)
| Mod (f : st -> st) (k : prog A).
Arguments Ret {A}. Arguments Stuck {A}. Arguments Call {A}. Arguments Get {A}. Arguments Mod {A}.

Fixpoint bind {A B} (p : prog A) (f : A -> prog B) : prog B :=
  match p with
  | Ret a => f a
  | Stuck t => Stuck t
  | Call c k => Call c (fun a => bind (k a) f)
  | Get k => Get (fun s => bind (k s) f)
  | Mod g k => Mod g (bind k f)
  end.

Notation "'let*' x := p 'in' q" := (bind p (fun x => q)) (at level 200, x name, p at level 100, q at level 200).
Notation "p ;; q" := (bind p (fun _ => q)) (at level 100, right associativity).

(** reading an array: no value beyond its end *)
Notation "'do' x <- p ; q" := (match p with Some x => q | None => None end) (at level 200, x name, p at level 100, q at level 200).

Definition ask (c : call) : prog answer := Call c Ret.
Definition look {A} (f : st -> A) : prog A := Get (fun s => Ret (f s)).
Definition modify (f : st -> st) : prog Datatypes.unit := Mod f (Ret tt).
Definition need {A} (t : trouble) (o : option A) : prog A := match o with Some a => Ret a | None => Stuck t end.

(** one way a program can behave: the calls it issued with their answers, how it ended, and
    the variables it left *)
Inductive outcome (A : Type) := Done (a : A) | Trouble (t : trouble).
Arguments Done {A}. Arguments Trouble {A}.

Fixpoint exec {A} (p : prog A) (s : st) (tr : list event) (o : outcome A) (s' : st) : Prop :=
  match p with
  | Ret a => tr = [] /\ o = Done a /\ s' = s
  | Stuck t => tr = [] /\ o = Trouble t /\ s' = s
  | Call c k => exists a tr', tr = (c, a) :: tr' /\ exec (k a) s tr' o s'
  | Get k => exec (k s) s tr o s'
  | Mod f k => exec k (f s) tr o s'
  end.

(** std::vector<double> q(numJoints); f(q.data()): the callee fills the array *)
Definition fill {A} (d : A) (n : nat) (l : list A) : list A := map (fun i => nth i l d) (seq 0 n).
(** f(v.data()): the callee reads the first n values *)
Definition first_n (n : nat) (l : list R) : option (list R) := if Nat.ltb (length l) n then None else Some (firstn n l).
Definition zeros (n : nat) : list R := repeat 0 n.

(** ** BasicCartesianControl.cpp *)

(** 26-29: sgn *)
Definition sgn (x : R) : Z := if Rltb 0 x then 1%Z else if Rltb x 0 then (-1)%Z else 0%Z.
(** 32 *)
Definition epsilon : R := 1 / 100000.

(** 53-70: checkJointLimits(q).  [None]: reading beyond the end of a vector. *)
Fixpoint limits_loop (c : cfg) (q : list R) (joints : list nat) : option bool :=
  match joints with
  | [] => Some true
  | j :: js =>
      do value <- nth_error q j; do lo <- nth_error (qMin c) j; do hi <- nth_error (qMax c) j;
      if Rltb value (lo + epsilon) || Rltb (hi - epsilon) value then Some false
      else limits_loop c q js
  end.
Definition checkJointLimits (c : cfg) (q : list R) : option bool := limits_loop c q (seq 0 (numJoints c)).

(** 74-95: checkJointLimits(q, qdot) *)
Fixpoint limits_dir_loop (c : cfg) (q qdot : list R) (joints : list nat) : option bool :=
  match joints with
  | [] => Some true
  | j :: js =>
      do value <- nth_error q j; do lo <- nth_error (qMin c) j; do hi <- nth_error (qMax c) j;
      if Rltb value (lo + epsilon) || Rltb (hi - epsilon) value then
        do w <- nth_error qdot j;
        if Z.eqb (sgn (value - (hi + lo) / 2)) (sgn w) then Some false else limits_dir_loop c q qdot js
      else limits_dir_loop c q qdot js
  end.
Definition checkJointLimitsDir (c : cfg) (q qdot : list R) : option bool := limits_dir_loop c q qdot (seq 0 (numJoints c)).

(** 99-123: checkJointVelocities *)
Fixpoint velocities_loop (c : cfg) (qdot : list R) (joints : list nat) : option bool :=
  match joints with
  | [] => Some true
  | j :: js =>
      do value <- nth_error qdot j; do lo <- nth_error (qdotMin c) j; do hi <- nth_error (qdotMax c) j;
      if Reqb lo 0 then
        if Rltb hi (Rabs value) then Some false else velocities_loop c qdot js
      else if Rltb value lo || Rltb hi value then Some false
      else velocities_loop c qdot js
  end.
Definition checkJointVelocities (c : cfg) (qdot : list R) : option bool := velocities_loop c qdot (seq 0 (numJoints c)).

(** 184-195: checkControlModes *)
Definition checkControlModes (c : cfg) (mode : Z) : prog bool :=
  let* a := ask GetControlModes in
  Ret (ok a && forallb (Z.eqb mode) (fill 0%Z (numJoints c) (modes a))).

(** 230-243: the retries of setControlModes *)
Fixpoint mode_retries (c : cfg) (mode : Z) (n : nat) : prog bool :=
  let* _ := ask (Sleep (1 / 10)) in
  let* b := checkControlModes c mode in
  if b then Ret true else match n with O => Ret false | S n' => mode_retries c mode n' end.

(** 199-244: setControlModes *)
Definition setControlModes (c : cfg) (mode : Z) : prog bool :=
  let* a := ask GetControlModes in
  if negb (ok a) then Ret false else
  let ms := fill 0%Z (numJoints c) (modes a) in
  let jointIds := filter (fun i => negb (Z.eqb (nth i ms 0%Z) mode)) (seq 0 (numJoints c)) in
  let* fine :=
    match jointIds with
    | [] => Ret true
    | _ => let* b := ask (SetControlModes jointIds mode) in Ret (ok b)
    end in
  if negb fine then Ret false else mode_retries c mode 10.

(** 248-266: presetStreamingCommand *)
Definition presetStreamingCommand (c : cfg) (command : Z) : prog bool :=
  modify (setCurrentState VOCAB_CC_NOT_CONTROLLING) ;;
  if Z.eqb command VOCAB_CC_POSE || Z.eqb command VOCAB_CC_MOVI then setControlModes c VOCAB_CM_POSITION_DIRECT
  else if Z.eqb command VOCAB_CC_TWIST then setControlModes c VOCAB_CM_VELOCITY
  else if Z.eqb command VOCAB_CC_WRENCH then setControlModes c VOCAB_CM_TORQUE
  else Ret false.

(** 270-315: computeIsocronousSpeeds.  First loop: distances and the longest time. *)
Fixpoint iso_times (c : cfg) (q qd : list R) (joints : list nat) (maxTime : R) : option (list R * R) :=
  match joints with
  | [] => Some ([], maxTime)
  | j :: js =>
      do ref <- nth_error (qRefSpeeds c) j;
      if Rleb ref 0 then
        do r <- iso_times c q qd js maxTime; Some (0 :: fst r, snd r)
      else
        do t <- nth_error qd j; do v <- nth_error q j;
        let delta := Rabs (t - v) in
        let targetTime := delta / ref in
        do r <- iso_times c q qd js (if Rltb maxTime targetTime then targetTime else maxTime);
        Some (delta :: fst r, snd r)
  end.
Definition computeIsocronousSpeeds (c : cfg) (q qd : list R) : option (list R * bool) :=
  do r <- iso_times c q qd (seq 0 (numJoints c)) 0;
  let maxTime := snd r in
  if Reqb maxTime 0 then Some (map (fun _ => 0) (fst r), false)
  else Some (map (fun delta => delta / maxTime) (fst r), true).

(** ** PeriodicThreadImpl.cpp and stopControl *)
Definition MAX_ENCODER_ERRORS : Z := 20.

(** ICartesianControlImpl.cpp 348-369: stopControl *)
Definition stopControl (c : cfg) : prog bool :=
  modify (setCurrentState VOCAB_CC_NOT_CONTROLLING) ;;
  let* _ := setControlModes c VOCAB_CM_POSITION in
  let* _ := ask Stop in
  modify (set_trajectories []) ;;
  Ret true.

(** The handlers return whether the watcher was suppressed. *)

(** 82-109: handleMovj *)
Definition handleMovj (c : cfg) : prog bool :=
  let* b := checkControlModes c VOCAB_CM_POSITION in
  if negb b then Ret false else
  let* a := ask CheckMotionDone in
  if negb (ok a) then Ret false else
  if done a then
    modify (setCurrentState VOCAB_CC_NOT_CONTROLLING) ;;
    let* v := look vmoStored in
    let* v := need OutOfBounds (first_n (numJoints c) v) in
    let* _ := ask (SetRefSpeeds v) in
    Ret true
  else Ret true.

(** 125-143, 202-215, 259-270: the desired pose and, if asked for, velocity along every trajectory;
    [None]: the end of one of them was passed.  KdlVectorConverter is part of the answer. *)
Fixpoint sample (ts : list traj) (time : R) (stop_at_end with_vel : bool) (x xdot : list R) : prog (option (list R * list R)) :=
  match ts with
  | [] => Ret (Some (x, xdot))
  | t :: ts' =>
      let* over := (if stop_at_end then let* d := ask (TrajDuration t) in Ret (Rltb (num d) time) else Ret false) in
      if over then Ret None else
      let* p := ask (TrajPos t time) in
      if with_vel then
        let* v := ask (TrajVel t time) in
        sample ts' time stop_at_end with_vel (x ++ vals p) (xdot ++ vals v)
      else sample ts' time stop_at_end with_vel (x ++ vals p) xdot
  end.

(** 157-161, 276-280: commandXdot[i] *= g; commandXdot[i] += desiredXdot[i] *)
Fixpoint control_law (g : R) (err des : list R) : option (list R) :=
  match err with
  | [] => Some []
  | x :: xs => match des with
               | [] => None
               | y :: ys => do r <- control_law g xs ys; Some (x * g + y :: r)
               end
  end.

(** gain * (1000.0 / cmcPeriodMs) *)
Definition loop_gain (s : st) : option R :=
  if Z.eqb (cmcPeriodMs s) 0 then None else Some (gain s * (1000 / IZR (cmcPeriodMs s))).

(** 153-185, 272-304: control law, differential inverse kinematics, velocity check and
    velocity command, common to handleMovlVel and handleMovv *)
Definition velocity_command (c : cfg) (q currentX desiredX desiredXdot : list R) (frame : Z) : prog bool :=
  let* e := ask (PoseDiff desiredX currentX) in
  let* g := look loop_gain in
  let* g := (match vals e with [] => Ret 0 | _ => need NotFinite g end) in
  let* cmd := need OutOfBounds (control_law g (vals e) desiredXdot) in
  let* a := ask (DiffInvKin q cmd frame) in
  if negb (ok a) then Ret false else
  let* b := need OutOfBounds (checkJointVelocities c (vals a)) in
  if negb b then Ret false else
  let* w := need OutOfBounds (first_n (numJoints c) (vals a)) in
  let* _ := ask (VelocityMove w) in
  Ret true.

(** 113-186: handleMovlVel *)
Definition handleMovlVel (c : cfg) (q : list R) : prog bool :=
  let* b := checkControlModes c VOCAB_CM_VELOCITY in
  if negb b then Ret false else
  let* now := ask Now in
  let* start := look movementStartTime in
  let* ts := look trajectories in
  let* des := sample ts (num now - start) true true [] [] in
  match des with
  | None => let* _ := stopControl c in Ret true
  | Some (desiredX, desiredXdot) =>
      let* cur := ask (FwdKin q) in
      if negb (ok cur) then Ret false else
      velocity_command c q (vals cur) desiredX desiredXdot BASE_FRAME
  end.

(** 190-234: handleMovlPosd *)
Definition handleMovlPosd (c : cfg) (q : list R) : prog bool :=
  let* b := checkControlModes c VOCAB_CM_POSITION_DIRECT in
  if negb b then Ret false else
  let* now := ask Now in
  let* start := look movementStartTime in
  let* ts := look trajectories in
  let* des := sample ts (num now - start) true false [] [] in
  match des with
  | None => let* _ := stopControl c in Ret true
  | Some (desiredX, _) =>
      let* a := ask (InvKin desiredX q BASE_FRAME) in
      if negb (ok a) then Ret false else
      let* target := need OutOfBounds (first_n (numJoints c) (vals a)) in
      let* _ := ask (SetPositions target) in
      Ret true
  end.

(** 238-305: handleMovv *)
Definition handleMovv (c : cfg) (q : list R) : prog bool :=
  let* b := checkControlModes c VOCAB_CM_VELOCITY in
  if negb b then Ret false else
  let* now := ask Now in
  let* start := look movementStartTime in
  let* cur := ask (FwdKin q) in
  if negb (ok cur) then Ret false else
  let* ts := look trajectories in
  let* des := sample ts (num now - start) false true [] [] in
  match des with
  | None => Ret false
  | Some (desiredX, desiredXdot) =>
      let* frame := look referenceFrame in
      velocity_command c q (vals cur) desiredX desiredXdot frame
  end.

(** 309-331: handleGcmp *)
Definition handleGcmp (c : cfg) (q : list R) : prog bool :=
  let* b := checkControlModes c VOCAB_CM_TORQUE in
  if negb b then Ret false else
  let* a := ask (InvDyn q) in
  if negb (ok a) then Ret false else
  let* t := need OutOfBounds (first_n (numJoints c) (vals a)) in
  let* _ := ask (SetRefTorques t) in
  Ret true.

(** 335-358: handleForc *)
Definition handleForc (c : cfg) (q qdot qdotdot : list R) : prog bool :=
  let* b := checkControlModes c VOCAB_CM_TORQUE in
  if negb b then Ret false else
  let* f := look fd in
  let* frame := look referenceFrame in
  let* a := ask (InvDynForce q qdot qdotdot f frame) in
  if negb (ok a) then Ret false else
  let* t := need OutOfBounds (first_n (numJoints c) (vals a)) in
  let* _ := ask (SetRefTorques t) in
  Ret true.

(** 29-33: the three readings, stopping at the first that fails *)
Definition read_encoders (c : cfg) : prog (option (list R * list R * list R)) :=
  let* a := ask GetEncoders in
  if negb (ok a) then Ret None else
  let* b := ask GetEncoderSpeeds in
  if negb (ok b) then Ret None else
  let* d := ask GetEncoderAccelerations in
  if negb (ok d) then Ret None else
  Ret (Some (fill 0 (numJoints c) (vals a), fill 0 (numJoints c) (vals b), fill 0 (numJoints c) (vals d))).

(** 29-77: the body of run, after the watcher was created; the result tells whether the
    watcher was suppressed *)
Definition cycle_body (c : cfg) (state : Z) : prog bool :=
  let* r := read_encoders c in
  match r with
  | None =>
      modify (fun s => set_encoderErrors (encoderErrors s + 1)%Z s) ;;
      let* n := look encoderErrors in
      Ret (negb (Z.ltb MAX_ENCODER_ERRORS n))
  | Some (q, qdot, qdotdot) =>
      modify (set_encoderErrors 0) ;;
      let* b := need OutOfBounds (checkJointLimits c q) in
      if negb b then Ret false else
      if Z.eqb state VOCAB_CC_MOVJ_CONTROLLING then handleMovj c
      else if Z.eqb state VOCAB_CC_MOVL_CONTROLLING then (if usePosdMovl c then handleMovlPosd c q else handleMovlVel c q)
      else if Z.eqb state VOCAB_CC_MOVV_CONTROLLING then handleMovv c q
      else if Z.eqb state VOCAB_CC_GCMP_CONTROLLING then handleGcmp c q
      else if Z.eqb state VOCAB_CC_FORC_CONTROLLING then handleForc c q qdot qdotdot
      else Ret false
  end.

(** 18-78: run; the watcher's handler (line 27) runs at the end unless suppressed
    (BasicCartesianControl.hpp 144-159).  Simplified: the watcher does not run when the
    cycle ends in trouble. *)
Definition run (c : cfg) : prog Datatypes.unit :=
  let* state := look currentState in
  if Z.eqb state VOCAB_CC_NOT_CONTROLLING then Ret tt else
  let* suppressed := cycle_body c state in
  if suppressed then Ret tt else
  modify (set_cmcSuccess false) ;;
  let* _ := stopControl c in
  Ret tt.

(** ** ICartesianControlImpl.cpp *)

(** 37-64: stat; [timed]: the timestamp was asked for (29-32: getTimestamp) *)
Definition stat (c : cfg) (timed : bool) : prog (option (list R * Z * R)) :=
  let* a := ask GetEncoders in
  if negb (ok a) then Ret None else
  let* t := (if timed then let* t := ask (if preciselyTimed c then LastInputStamp else Now) in Ret (num t) else Ret 0) in
  let* x := ask (FwdKin (fill 0 (numJoints c) (vals a))) in
  if negb (ok x) then Ret None else
  let* v := look currentState in
  Ret (Some (vals x, v, t)).

(** 68-85: inv *)
Definition inv (c : cfg) (xd : list R) : prog (option (list R)) :=
  let* a := ask GetEncoders in
  if negb (ok a) then Ret None else
  let* frame := look referenceFrame in
  let* q := ask (InvKin xd (fill 0 (numJoints c) (vals a)) frame) in
  if negb (ok q) then Ret None else Ret (Some (vals q)).

(** 89-146: movj *)
Definition movj (c : cfg) (xd : list R) : prog bool :=
  let* a := ask GetEncoders in
  if negb (ok a) then Ret false else
  let currentQ := fill 0 (numJoints c) (vals a) in
  let* frame := look referenceFrame in
  let* qd := ask (InvKin xd currentQ frame) in
  if negb (ok qd) then Ret false else
  let* iso := need OutOfBounds (computeIsocronousSpeeds c currentQ (vals qd)) in
  if snd iso then
    let* v := ask GetRefSpeeds in
    modify (fun s => set_vmoStored (fill 0 (numJoints c) (vals v)) s) ;;
    if negb (ok v) then Ret false else
    let* r := ask (SetRefSpeeds (fst iso)) in
    if negb (ok r) then Ret false else
    let* m := setControlModes c VOCAB_CM_POSITION in
    if negb m then Ret false else
    let* target := need OutOfBounds (first_n (numJoints c) (vals qd)) in
    let* p := ask (PositionMove target) in
    if negb (ok p) then Ret false else
    modify (set_cmcSuccess true) ;;
    modify (setCurrentState VOCAB_CC_MOVJ_CONTROLLING) ;;
    Ret true
  else Ret true.

(** 150-171: relj *)
Fixpoint add_to (x xd : list R) : option (list R) :=
  match xd with
  | [] => Some x
  | d :: ds => match x with [] => None | y :: ys => do r <- add_to ys ds; Some (y + d :: r) end
  end.
Definition relj (c : cfg) (xd : list R) : prog bool :=
  let* frame := look referenceFrame in
  if Z.eqb frame TCP_FRAME then movj c xd else
  let* r := stat c false in
  match r with
  | None => Ret false
  | Some (x, _, _) => let* y := need OutOfBounds (add_to x xd) in movj c y
  end.

(** 213-216, 271-274: six numbers per endpoint *)
Definition six (l : list R) (i : nat) : option (list R) :=
  if Nat.ltb (length l) (6 * (i + 1)) then None else Some (firstn 6 (skipn (6 * i) l)).
Fixpoint build (mk : list R -> list R -> traj) (from what : list R) (is : list nat) : option (list traj) :=
  match is with
  | [] => Some []
  | i :: is' => do a <- six from i; do b <- six what i; do r <- build mk from what is'; Some (mk a b :: r)
  end.

(** BasicCartesianControl.cpp 127-180: doFailFastChecks.  std::transform writes as many
    values as newQ has into a buffer of 6 per endpoint, reading as many from oldQ. *)
Fixpoint minus (a b : list R) (room : nat) : option (list R) :=
  match a with
  | [] => Some []
  | x :: xs => match b, room with
               | y :: ys, S n => do r <- minus xs ys n; Some (x - y :: r)
               | _, _ => None
               end
  end.
(** the buffer keeps the values it had beyond those written *)
Definition overwrite (old new : list R) : list R := new ++ skipn (length new) old.
Fixpoint max_duration (ts : list traj) (m : R) : prog R :=
  match ts with
  | [] => Ret m
  | t :: ts' => let* d := ask (TrajDuration t) in max_duration ts' (Rmax m (num d))
  end.
Fixpoint positions (ts : list traj) (time : R) (x : list R) : prog (list R) :=
  match ts with
  | [] => Ret x
  | t :: ts' => let* p := ask (TrajPos t time) in positions ts' time (x ++ vals p)
  end.
Fixpoint failfast_loop (c : cfg) (ts : list traj) (fuel : nat) (interval step maxDur : R) (oldQ buf : list R) : prog bool :=
  if Rltb maxDur interval then Ret true else
  match fuel with
  | O => Stuck Endless
  | S fuel' =>
      let* x := positions ts interval [] in
      let* a := ask (InvKin x oldQ BASE_FRAME) in
      if negb (ok a) then Ret false else
      let* d := need OutOfBounds (minus (vals a) oldQ (length buf)) in
      let buf' := overwrite buf d in
      let* b := need OutOfBounds (checkJointLimits c (vals a)) in
      if negb b then Ret false else
      let* v := need OutOfBounds (checkJointVelocities c buf') in
      if negb v then Ret false else
      failfast_loop c ts fuel' (interval + step) step maxDur (vals a) buf'
  end.
Definition doFailFastChecks (c : cfg) (fuel : nat) (initialQ : list R) : prog bool :=
  let* ts := look trajectories in
  match ts with
  | [] => Ret false
  | _ =>
      let* p := ask GetPeriod in
      let* n := ask GetNumTcps in
      let* maxDur := max_duration ts 0 in
      failfast_loop c ts fuel 0 (num p * (1 / 2)) maxDur initialQ (zeros (Z.to_nat (hd 0%Z (modes n)) * 6))
  end.

(** 175-247: movl.  [fuel] bounds the iterations of the fail-fast check. *)
Definition movl (c : cfg) (fuel : nat) (xd : list R) : prog bool :=
  let* a := ask GetEncoders in
  if negb (ok a) then Ret false else
  let currentQ := fill 0 (numJoints c) (vals a) in
  let* x := ask (FwdKin currentQ) in
  if negb (ok x) then Ret false else
  let* frame := look referenceFrame in
  let* obj := (if Z.eqb frame TCP_FRAME
               then let* r := ask (ChangeOrigin xd (vals x)) in Ret (if ok r then Some (vals r) else None)
               else Ret (Some xd)) in
  match obj with
  | None => Ret false
  | Some xd_obj =>
      modify (set_trajectories []) ;;
      let* seconds := look duration in
      let* ts := need OutOfBounds (build (fun f t => Line f t seconds) (vals x) xd_obj (seq 0 (length xd / 6))) in
      modify (set_trajectories ts) ;;
      let* fine := (if enableFailFast c then doFailFastChecks c fuel currentQ else Ret true) in
      if negb fine then Ret false else
      let* m := setControlModes c (if usePosdMovl c then VOCAB_CM_POSITION_DIRECT else VOCAB_CM_VELOCITY) in
      if negb m then Ret false else
      let* now := ask Now in
      modify (set_startTime (num now)) ;;
      modify (set_cmcSuccess true) ;;
      modify (setCurrentState VOCAB_CC_MOVL_CONTROLLING) ;;
      Ret true
  end.

(** 251-302: movv *)
Definition movv (c : cfg) (xdotd : list R) : prog bool :=
  let* a := ask GetEncoders in
  if negb (ok a) then Ret false else
  let* x := ask (FwdKin (fill 0 (numJoints c) (vals a))) in
  if negb (ok x) then Ret false else
  modify (set_trajectories []) ;;
  let* ts := need OutOfBounds (build Along (vals x) xdotd (seq 0 (length xdotd / 6))) in
  modify (set_trajectories ts) ;;
  let* m := setControlModes c VOCAB_CM_VELOCITY in
  if negb m then Ret false else
  let* now := ask Now in
  modify (set_startTime (num now)) ;;
  modify (set_cmcSuccess true) ;;
  modify (setCurrentState VOCAB_CC_MOVV_CONTROLLING) ;;
  Ret true.

(** 306-316: gcmp *)
Definition gcmp (c : cfg) : prog bool :=
  let* m := setControlModes c VOCAB_CM_TORQUE in
  if negb m then Ret false else
  modify (setCurrentState VOCAB_CC_GCMP_CONTROLLING) ;;
  Ret true.

(** 320-344: forc *)
Definition forc (c : cfg) (f : list R) : prog bool :=
  let* frame := look referenceFrame in
  if Z.eqb frame TCP_FRAME then Ret false else
  modify (set_fd (map Ropp f)) ;;
  let* m := setControlModes c VOCAB_CM_TORQUE in
  if negb m then Ret false else
  modify (setCurrentState VOCAB_CC_FORC_CONTROLLING) ;;
  Ret true.

(** 373-398: wait.  [fuel] bounds the iterations. *)
Fixpoint wait_loop (c : cfg) (fuel : nat) (timeout start : R) (state : Z) : prog Datatypes.unit :=
  if Z.eqb state VOCAB_CC_NOT_CONTROLLING then Ret tt else
  match fuel with
  | O => Stuck Endless
  | S fuel' =>
      let* late := (if Reqb timeout 0 then Ret false else let* now := ask Now in Ret (Rltb timeout (num now - start))) in
      if late then let* _ := stopControl c in Ret tt
      else
        let* p := look waitPeriodMs in
        let* _ := ask (Sleep (IZR p / 1000)) in
        let* state' := look currentState in
        wait_loop c fuel' timeout start state'
  end.
Definition wait (c : cfg) (fuel : nat) (timeout : R) : prog bool :=
  let* state := look currentState in
  if negb (Z.eqb state VOCAB_CC_MOVJ_CONTROLLING) && negb (Z.eqb state VOCAB_CC_MOVL_CONTROLLING) then Ret true else
  let* start := ask Now in
  wait_loop c fuel timeout (num start) state ;;
  look cmcSuccess.

(** 402-417: tool; 421-425: act *)
Definition tool (x : list R) : prog bool :=
  let* a := ask RestoreOriginalChain in
  if negb (ok a) then Ret false else
  let* b := ask (AppendLink x) in
  if negb (ok b) then Ret false else Ret true.
Definition act (command : Z) : prog bool := Ret false.

(** 429-471: pose *)
Definition pose (c : cfg) (x : list R) : prog Datatypes.unit :=
  let* v := look currentState in
  if negb (Z.eqb v VOCAB_CC_NOT_CONTROLLING) then Ret tt else
  let* sc := look streamingCommand in
  if negb (Z.eqb sc VOCAB_CC_POSE) && negb (Z.eqb sc VOCAB_CC_MOVI) then Ret tt else
  let* b := checkControlModes c VOCAB_CM_POSITION_DIRECT in
  if negb b then Ret tt else
  let* a := ask GetEncoders in
  if negb (ok a) then Ret tt else
  let currentQ := fill 0 (numJoints c) (vals a) in
  let* frame := look referenceFrame in
  let* q := ask (InvKin x currentQ frame) in
  if negb (ok q) then Ret tt else
  let* target := need OutOfBounds (first_n (numJoints c) (vals q)) in
  let* qdiff := need OutOfBounds (minus target currentQ (numJoints c)) in
  let* l := need OutOfBounds (checkJointLimitsDir c currentQ qdiff) in
  if negb l then Ret tt else
  let* _ := ask (SetPositions target) in
  Ret tt.

(** 475-511: twist; 484: the watcher commands zero velocities unless suppressed *)
Definition twist (c : cfg) (xdot : list R) : prog Datatypes.unit :=
  let* v := look currentState in
  if negb (Z.eqb v VOCAB_CC_NOT_CONTROLLING) then Ret tt else
  let* sc := look streamingCommand in
  if negb (Z.eqb sc VOCAB_CC_TWIST) then Ret tt else
  let* b := checkControlModes c VOCAB_CM_VELOCITY in
  if negb b then Ret tt else
  let* suppressed :=
    (let* a := ask GetEncoders in
     if negb (ok a) then Ret false else
     let currentQ := fill 0 (numJoints c) (vals a) in
     let* frame := look referenceFrame in
     let* w := ask (DiffInvKin currentQ xdot frame) in
     if negb (ok w) then Ret false else
     let* l := need OutOfBounds (checkJointLimitsDir c currentQ (vals w)) in
     if negb l then Ret false else
     let* m := need OutOfBounds (checkJointVelocities c (vals w)) in
     if negb m then Ret false else
     let* w := need OutOfBounds (first_n (numJoints c) (vals w)) in
     let* _ := ask (VelocityMove w) in
     Ret true) in
  if suppressed then Ret tt else
  let* _ := ask (VelocityMove (zeros (numJoints c))) in
  Ret tt.

(** 515-569: wrench *)
Definition wrench (c : cfg) (w : list R) : prog Datatypes.unit :=
  let* v := look currentState in
  if negb (Z.eqb v VOCAB_CC_NOT_CONTROLLING) then Ret tt else
  let* sc := look streamingCommand in
  if negb (Z.eqb sc VOCAB_CC_WRENCH) then Ret tt else
  let* b := checkControlModes c VOCAB_CM_TORQUE in
  if negb b then Ret tt else
  let* suppressed :=
    (let* r := read_encoders c in
     match r with
     | None => Ret false
     | Some (q, qdot, qdotdot) =>
         let* l := need OutOfBounds (checkJointLimits c q) in
         if negb l then Ret false else
         let* frame := look referenceFrame in
         let* t := ask (InvDynForce q qdot qdotdot (map Ropp w) frame) in
         if negb (ok t) then Ret false else
         let* t := need OutOfBounds (first_n (numJoints c) (vals t)) in
         let* _ := ask (SetRefTorques t) in
         Ret true
     end) in
  if suppressed then Ret tt else
  let* _ := ask (SetRefTorques (zeros (numJoints c))) in
  Ret tt.

(** conversion of a double to int: towards zero, undefined outside the 32-bit range *)
Definition trunc (x : R) : Z := if Rltb x 0 then (- (up (- x) - 1))%Z else (up x - 1)%Z.
Definition to_int (x : R) : option Z :=
  let z := trunc x in if (Z.ltb z (-2147483648) || Z.ltb 2147483647 z)%Z then None else Some z.

(** 573-637: setParameter *)
Definition setParameter (c : cfg) (key : Z) (value : R) : prog bool :=
  let* v := look currentState in
  if negb (Z.eqb v VOCAB_CC_NOT_CONTROLLING) then Ret false else
  if Z.eqb key VOCAB_CC_CONFIG_GAIN then
    if Rltb value 0 then Ret false else modify (set_gain value) ;; Ret true
  else if Z.eqb key VOCAB_CC_CONFIG_TRAJ_DURATION then
    if Rleb value 0 then Ret false else modify (set_duration value) ;; Ret true
  else if Z.eqb key VOCAB_CC_CONFIG_CMC_PERIOD then
    let* a := ask (SetPeriod (value * (1 / 1000))) in
    if negb (ok a) then Ret false else
    let* n := need BadCast (to_int value) in modify (set_cmcPeriodMs n) ;; Ret true
  else if Z.eqb key VOCAB_CC_CONFIG_WAIT_PERIOD then
    if Rleb value 0 then Ret false else
    let* n := need BadCast (to_int value) in modify (set_waitPeriodMs n) ;; Ret true
  else if Z.eqb key VOCAB_CC_CONFIG_FRAME then
    if negb (Reqb value (IZR BASE_FRAME)) && negb (Reqb value (IZR TCP_FRAME)) then Ret false else
    let* n := need BadCast (to_int value) in modify (set_frame n) ;; Ret true
  else if Z.eqb key VOCAB_CC_CONFIG_STREAMING_CMD then
    let* n := need BadCast (to_int value) in
    let* b := presetStreamingCommand c n in
    if negb b then Ret false else modify (set_streaming n) ;; Ret true
  else Ret false.

(** 641-669: getParameter *)
Definition read_param (key : Z) (s : st) : option R :=
  if Z.eqb key VOCAB_CC_CONFIG_GAIN then Some (gain s)
  else if Z.eqb key VOCAB_CC_CONFIG_TRAJ_DURATION then Some (duration s)
  else if Z.eqb key VOCAB_CC_CONFIG_CMC_PERIOD then Some (IZR (cmcPeriodMs s))
  else if Z.eqb key VOCAB_CC_CONFIG_WAIT_PERIOD then Some (IZR (waitPeriodMs s))
  else if Z.eqb key VOCAB_CC_CONFIG_FRAME then Some (IZR (referenceFrame s))
  else if Z.eqb key VOCAB_CC_CONFIG_STREAMING_CMD then Some (IZR (streamingCommand s))
  else None.
Definition getParameter (key : Z) : prog (option R) := look (read_param key).

(** 673-689: setParameters (the map in the order of its keys) *)
Fixpoint set_all (c : cfg) (params : list (Z * R)) (fine : bool) : prog bool :=
  match params with
  | [] => Ret fine
  | (k, v) :: ps => let* b := setParameter c k v in set_all c ps (fine && b)
  end.
Definition setParameters (c : cfg) (params : list (Z * R)) : prog bool :=
  let* v := look currentState in
  if negb (Z.eqb v VOCAB_CC_NOT_CONTROLLING) then Ret false else set_all c params true.

(** 693-702: getParameters; emplace leaves existing entries alone *)
Definition emplace (k : Z) (v : R) (m : list (Z * R)) : list (Z * R) :=
  if existsb (fun e => Z.eqb (fst e) k) m then m else m ++ [(k, v)].
Definition getParameters (params : list (Z * R)) : prog (list (Z * R)) :=
  look (fun s =>
    emplace VOCAB_CC_CONFIG_STREAMING_CMD (IZR (streamingCommand s))
   (emplace VOCAB_CC_CONFIG_FRAME (IZR (referenceFrame s))
   (emplace VOCAB_CC_CONFIG_WAIT_PERIOD (IZR (waitPeriodMs s))
   (emplace VOCAB_CC_CONFIG_CMC_PERIOD (IZR (cmcPeriodMs s))
   (emplace VOCAB_CC_CONFIG_TRAJ_DURATION (duration s)
   (emplace VOCAB_CC_CONFIG_GAIN (gain s) params)))))).

(** ** DeviceDriverImpl.cpp *)

(** 130-188: the joint limits used by the checks.  [user]: mins, maxs and maxvels are all in
    the configuration.  [robot] gives each joint's position and velocity limits, if it can. *)
Fixpoint robot_limits (robot : nat -> option (R * R * R * R)) (joints : list nat) : option (list R * list R * list R * list R) :=
  match joints with
  | [] => Some ([], [], [], [])
  | j :: js =>
      do l <- robot j; do r <- robot_limits robot js;
      let '(a, b, d, e) := l in let '(w, x, y, z) := r in Some (a :: w, b :: x, d :: y, e :: z)
  end.
Definition open_limits (n : nat) (user : bool) (robot : nat -> option (R * R * R * R)) : option (list R * list R * list R * list R) :=
  if user then Some ([], [], [], []) else robot_limits robot (seq 0 n).

(** 21-220: open, as far as the controller's own variables go: the parameters (defaults
    applied), the flags, the robot's joint count and reference speeds, its limits, the
    solver's joint count and whether the thread started.  Simplified: opening of the two
    devices and the views of their interfaces are assumed to succeed. *)
Definition open (g dur : R) (cmc wait_ : Z) (posd failfast : bool) (frame : Z) (timed : bool)
    (n : nat) (refs : option (list R)) (user : bool) (robot : nat -> option (R * R * R * R))
    (solver_joints : nat) (started : bool) : option (cfg * st) :=
  if failfast && negb posd then None else
  if negb (Z.eqb frame BASE_FRAME) && negb (Z.eqb frame TCP_FRAME) then None else
  do speeds <- refs;
  do l <- open_limits n user robot;
  if negb (Nat.eqb solver_joints n) then None else
  if negb started then None else
  let '(a, b, d, e) := l in
  Some (Cfg n posd failfast timed a b d e (fill 0 n speeds),
        St VOCAB_CC_NOT_CONTROLLING VOCAB_CC_NOT_SET g dur cmc wait_ frame [] 0 [] [] 0 true).

(** 224-231: close, without the devices *)
Definition close (c : cfg) : prog bool := let* _ := stopControl c in Ret true.
