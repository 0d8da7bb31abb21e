(** Model of programs/ftCompensation/FtCompensation.cpp (force/torque compensation module).

    Simplifications: doubles are reals; the option parser, ports and device opening are
    replaced by the record [options] and by the oracle [env], which gives what the sensor
    and the Cartesian controller answer to each call in the order of the calls; the value
    returned by the motion commands is ignored, as in the code (line 431). *)
From Coq Require Import Reals List Bool String ZArith.
From Verif Require Import Kdl KdlRot KinRep KdlSolver Vocab.
Import ListNotations.
Open Scope R_scope.
Local Notation S := Datatypes.S.

(** Effects seen by the Cartesian controller: ICartesianControl::twist, wrench,
    setParameter, stopControl *)
Inductive ft_cmd := FtTwist (v : list R) | FtWrench (v : list R) | FtPreset (mode : Z) | FtFrame (fr : Z) | FtStop.

(** A configuration value: absent, present but not a list, or a list of numbers *)
Inductive ft_val := Absent | Scalar | Numbers (l : list R).

Record ft_gains := Gains { linGain : R; rotGain : R; linStiffness : R; rotStiffness : R; linDamping : R; rotDamping : R;
                           forceDeadband : R; torqueDeadband : R }.

(** What configure reads, FtCompensation.cpp 38-74, 103, 208-209; [o_impedance] says that one of the
    four keys of line 74 is given *)
Record ft_options := FtOpt { o_mode : string; o_period : R; o_dry : bool; o_gains : ft_gains; o_impedance : bool;
                             o_sensor_rpy : ft_val; o_tool_com : ft_val; o_tool_weight : ft_val }.

(** Members of FtCompensation set by configure (FtCompensation.hpp) *)
Record ft_cfg := FtCfg { f_twist : bool; f_dry : bool; f_gains : ft_gains; f_imp : bool; f_period : R;
                         f_rot : mat; f_tool : option (vec * vec) }.
(** ... and those that run reads or changes: initialOffset, initialPose, previousPose *)
Record ft_state := FtSt { f_offset : wrench; f_initial : frame; f_previous : frame }.

(** Outcome of a member function: it returns true with a value, it returns false, or it reads past the end of a vector *)
Inductive ft_res (A : Type) := Done (a : A) | Fails | Undef.
Arguments Done {A} a. Arguments Fails {A}. Arguments Undef {A}.

(** KDL: operator*(Rotation, Wrench), operator-(Wrench, Wrench), Wrench::RefPoint
    (torque + force * v_base_AB) *)
Definition wrot (m : mat) (w : wrench) : wrench := Wr (mv m (w_force w)) (mv m (w_torque w)).
Definition wsub (a b : wrench) : wrench := Wr (vsub (w_force a) (w_force b)) (vsub (w_torque a) (w_torque b)).
Definition ref_point (w : wrench) (v : vec) : wrench := Wr (w_force w) (vadd (w_torque w) (cross (w_force w) v)).
(** KDL::diff(Frame, Frame, dt): the difference over dt *)
Definition frame_diff_dt (a b : frame) (dt : R) : twist :=
  Tw (vscale (/ dt) (t_vel (frame_diff a b))) (vscale (/ dt) (t_rot (frame_diff a b))).

(** FtCompensation.cpp 328-344: readSensor; [o] is the answer of getSixAxisForceTorqueSensorMeasure *)
Definition readSensor (rot : mat) (o : option (list R)) : ft_res wrench :=
  match o with
  | None => Fails
  | Some (a :: b :: c :: d :: e :: f :: _) => Done (wrot rot (Wr (V a b c) (V d e f)))
  | Some _ => Undef
  end.

(** FtCompensation.cpp 346-362: compensateTool; [x] is the answer of stat *)
Definition compensateTool (com weight : vec) (x : option (list R)) (w : wrench) : ft_res wrench :=
  match x with
  | None => Fails
  | Some x =>
      let h := vectorToFrame x in
      let toolWrench := wrot (mT (fM h)) (Wr weight vzero) in
      let toolWrench_N := ref_point toolWrench (vneg com) in
      Done (wsub w toolWrench_N)
  end.

(** FtCompensation.cpp 364-383: applyImpedance; the second component is the new previousPose *)
Definition applyImpedance (g : ft_gains) (period : R) (s : ft_state) (x : option (list R)) (w : wrench) : ft_res (wrench * frame) :=
  match x with
  | None => Fails
  | Some x =>
      let cur := vectorToFrame x in
      let disp := frame_diff (f_initial s) cur in
      let tw := frame_diff_dt (f_previous s) cur period in
      Done (Wr (vsub (w_force w) (vadd (vscale (linStiffness g) (t_vel disp)) (vscale (linDamping g) (t_vel tw))))
               (vsub (w_torque w) (vadd (vscale (rotStiffness g) (t_rot disp)) (vscale (rotDamping g) (t_rot tw)))), cur)
  end.

(** FtCompensation.cpp 397-420: deadband and gain; a zero vector with a negative deadband divides by zero
    (the vector of NaNs is [None]) *)
Definition deadband (f : vec) (band gain : R) : option vec :=
  let n := norm f in
  if Rltb band n then
    if Reqb n 0 then None
    else let threshold := vscale band (vscale (/ n) f) in Some (vscale gain (vsub f threshold))
  else Some vzero.

(** What one execution of run meets: the sensor reading, the answer to stat in compensateTool and that in
    applyImpedance *)
Record ft_input := FtIn { i_measure : option (list R); i_stat_tool : option (list R); i_stat_imp : option (list R) }.

(** FtCompensation.cpp 385-433: run; [Fails] is the call to askToStop. A division by zero in the deadband sends
    NaNs: it is merged with the reads out of bounds in [Undef]. *)
Definition ft_run (c : ft_cfg) (s : ft_state) (i : ft_input) : ft_res (list ft_cmd * ft_state) :=
  match readSensor (f_rot c) (i_measure i) with
  | Fails => Fails
  | Undef => Undef
  | Done w =>
      match (match f_tool c with Some (com, weight) => compensateTool com weight (i_stat_tool i) w | None => Done w end) with
      | Fails => Fails
      | Undef => Undef
      | Done w =>
          let w := wsub w (f_offset s) in
          match deadband (w_force w) (forceDeadband (f_gains c)) (linGain (f_gains c)),
                deadband (w_torque w) (torqueDeadband (f_gains c)) (rotGain (f_gains c)) with
          | Some fo, Some to =>
              match (if f_imp c then applyImpedance (f_gains c) (f_period c) s (i_stat_imp i) (Wr fo to)
                     else Done (Wr fo to, f_previous s)) with
              | Fails => Fails
              | Undef => Undef
              | Done (w, previous) =>
                  let v := wrenchToVector w in
                  Done (if f_dry c then [] else [if f_twist c then FtTwist v else FtWrench v],
                        FtSt (f_offset s) (f_initial s) previous)
              end
          | _, _ => Undef
          end
      end
  end.

(** FtCompensation.cpp 186-198: the wait loop; [status k] says that check number k (from 0) returned MAS_OK;
    the result is the final value of [retry]. The failing comparison of the post-incremented counter still
    increments it. *)
Fixpoint wait_sensor (status : nat -> bool) (left retry : nat) : nat :=
  if status retry then retry
  else match left with
       | O => S retry
       | S l => wait_sensor status l (S retry)
       end.

(** What the devices answer during configure: does the remote sensor have the name asked for (167-184), the statuses
    of the wait loop, the first reading, whether the Cartesian device opened (250-274), getParameters (None if it
    fails, otherwise whether it has the streaming key), the answers of the two setParameter calls, of stat in
    compensateTool, of stat for the initial pose, and of PeriodicThread::start *)
Record ft_env := FtEnv { e_found : bool; e_status : nat -> bool; e_measure : option (list R); e_device : bool;
                         e_params : option bool; e_preset : bool; e_frame : bool;
                         e_stat_tool : option (list R); e_stat_init : option (list R); e_start : bool }.

Definition deg2rad (x : R) : R := x * (PI / 180).

(** FtCompensation.cpp 103-126: R_N_sensor *)
Definition sensor_rotation (v : ft_val) : option mat :=
  match v with
  | Absent => Some mid
  | Numbers [r; p; y] => Some (RPY (deg2rad r) (deg2rad p) (deg2rad y))
  | _ => None
  end.
(** FtCompensation.cpp 208-244: tool parameters; the outer option is the error *)
Definition tool_parameters (com weight : ft_val) : option (option (vec * vec)) :=
  match com, weight with
  | Absent, _ | _, Absent => Some None
  | Numbers [a; b; c], Numbers [d; e; f] => Some (Some (V a b c, V d e f))
  | _, _ => None
  end.

(** FtCompensation.cpp 248-317 (the part that talks to the Cartesian controller): commands issued and, on success,
    the state from which run starts *)
Definition configure_cartesian (twist_mode dry imp : bool) (tool : option (vec * vec)) (e : ft_env) (offset : wrench)
  : list ft_cmd * ft_res ft_state :=
  if negb (e_device e) then ([], Fails)
  else
    let '(cmds, ok) :=
      if dry then ([], true)
      else match e_params e with
           | None => ([], false)
           | Some preset =>
               let p := if preset then [FtPreset (if twist_mode then VOCAB_CC_TWIST else VOCAB_CC_WRENCH)] else [] in
               if preset && negb (e_preset e) then (p, false)
               else (p ++ [FtFrame TCP_FRAME], e_frame e)
           end in
    if negb ok then (cmds, Fails)
    else match (match tool with Some (com, weight) => compensateTool com weight (e_stat_tool e) offset | None => Done offset end) with
         | Fails => (cmds, Fails)
         | Undef => (cmds, Undef)
         | Done offset =>
             if imp then match e_stat_init e with
                         | None => (cmds, Fails)
                         | Some x => (cmds, Done (FtSt offset (vectorToFrame x) (vectorToFrame x)))
                         end
             else (cmds, Done (FtSt offset (vectorToFrame []) (vectorToFrame [])))
         end.

(** FtCompensation.cpp 34-326: configure. [fid] for the poses that are left as they were (default constructed frames). *)
Definition ft_configure (o : ft_options) (e : ft_env) : list ft_cmd * ft_res (ft_cfg * ft_state) :=
  match (if String.eqb (o_mode o) "twist" then Some true else if String.eqb (o_mode o) "wrench" then Some false else None) with
  | None => ([], Fails)
  | Some twist_mode =>
      if o_impedance o && twist_mode then ([], Fails)
      else match sensor_rotation (o_sensor_rpy o) with
           | None => ([], Fails)
           | Some rot =>
               if negb (e_found e) then ([], Fails)
               else if Nat.eqb (wait_sensor (e_status e) 10 0) 10 then ([], Fails)
               else match readSensor rot (e_measure e) with
                    | Fails => ([], Fails)
                    | Undef => ([], Undef)
                    | Done offset =>
                        match tool_parameters (o_tool_com o) (o_tool_weight o) with
                        | None => ([], Fails)
                        | Some tool =>
                            let using_tool := match tool with Some _ => true | None => false end in
                            let '(cmds, r) :=
                              if negb (o_dry o) || using_tool || o_impedance o
                              then configure_cartesian twist_mode (o_dry o) (o_impedance o) tool e offset
                              else ([], Done (FtSt offset fid fid)) in
                            match r with
                            | Fails => (cmds, Fails)
                            | Undef => (cmds, Undef)
                            | Done s =>
                                if e_start e
                                then (cmds, Done (FtCfg twist_mode (o_dry o) (o_gains o) (o_impedance o) (o_period o) rot tool, s))
                                else (cmds, Fails)
                            end
                        end
                    end
           end
  end.

(** The life of the module once configured: executions of run until one fails (askToStop; then updateModule, 435-438,
    returns false and RFModule calls close, 451-456, which sends nothing) or, when the list is over, until the user
    interrupts it (interruptModule, 440-444). Trusted: yarp::os::RFModule::runModule calls interruptModule only when
    the module is stopped from outside. The result is the list of commands, [None] if a step is undefined. *)
Fixpoint ft_life (c : ft_cfg) (s : ft_state) (is : list ft_input) : option (list ft_cmd) :=
  match is with
  | [] => Some (if f_dry c then [] else [FtStop])
  | i :: is =>
      match ft_run c s i with
      | Undef => None
      | Fails => Some []
      | Done (cs, s) => match ft_life c s is with Some cs' => Some (cs ++ cs') | None => None end
      end
  end.
