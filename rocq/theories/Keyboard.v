(** Model of programs/keyboardController: the module (KeyboardController.cpp, KeyboardController.hpp) and the thread that
    streams poses (LinearTrajectoryThread.cpp).

    Simplifications: doubles are reals; what is printed on the terminal is left out; what the control board and the
    Cartesian controller answer comes from oracles; the thread runs between two key presses, never during one, so
    races between PeriodicThread::suspend and run are not seen. *)
From Coq Require Import Reals List Bool String Ascii ZArith.
From Verif Require Import Kdl KdlRot KinRep KdlSolver Vocab.
Import ListNotations.
Open Scope R_scope.
Local Notation S := Datatypes.S.
Local Notation length := List.length.

(** Calls on the control board (setControlModes on all the axes, positionMove, velocityMove, IPositionControl::stop,
    IVelocityControl::stop) and on ICartesianControl (movv, pose, act, setParameter of the streaming command and of
    the frame, stopControl). [KAct] carries the answer of the call; [KPoseNaN] is a pose that is not made of numbers.
    Calls that only read are left out. *)
Inductive k_cmd :=
| KPosModes (n : nat) | KVelModes (n : nat) | KPosMove (j : nat) (q : R) | KVelMove (j : nat) (v : R) | KPosStop | KVelStop
| KMovv (v : list R) | KPose (v : list R) | KPoseNaN | KAct (a : Z) (ok : bool) | KPreset (m : Z) | KFrame (f : Z) | KStop.

(** KeyboardController.hpp 57-58 and the two functors of line 60-61 *)
Inductive k_mode := NotControlling | JointMode | CartMode.
Inductive k_jmode := JPosition | JVelocity.
Inductive k_op := Inc | Dec.
Definition apply_op (o : k_op) (x y : R) : R := match o with Inc => x + y | Dec => x - y end.
Definition is_mode (m n : k_mode) : bool :=
  match m, n with NotControlling, NotControlling | JointMode, JointMode | CartMode, CartMode => true | _, _ => false end.

(** KeyboardController.hpp 81-107: members set by configure; [k_thread] is usingThread; [k_period] and [k_streaming] are the
    period and usingStreamingCommandConfig of the thread *)
Record k_cfg := KCfg { k_board : bool; k_axes : nat; k_min : list R; k_max : list R; k_maxv : list R; k_pstep : R; k_vstep : R;
                       k_cart : bool; k_thread : bool; k_period : R; k_streaming : bool }.
(** Where the streamed line starts (pose, twist, time): trajectory and startTime of LinearTrajectoryThread.hpp 42-43 *)
Record k_line := KLine { l_start : frame; l_twist : twist; l_time : R }.
(** ... and the members that keys change; the last ones belong to the thread (suspended, usingTcpFrame, deltaX, trajectory);
    [k_over] says that the module was asked to stop *)
Record k_st := KSt { k_ctl : k_mode; k_jm : k_jmode; k_jv : list R; k_cv : list R; k_act : Z; k_fr : Z;
                     k_susp : bool; k_tcp : bool; k_delta : list R; k_traj : option k_line; k_over : bool }.

(** What the devices answer during one key press: [e_act] by order of call; the clock *)
Record k_env := KEnv { e_act : nat -> bool; e_modes : bool; e_encs : option (list R); e_move : bool;
                       e_frame : bool; e_preset : bool; e_stat : option (list R); e_now : R }.

Fixpoint put {A} (j : nat) (x : A) (l : list A) : list A :=
  match l, j with
  | [], _ => []
  | _ :: l, O => x :: l
  | y :: l, S j => y :: put j x l
  end.

Definition set_ctl m s := KSt m (k_jm s) (k_jv s) (k_cv s) (k_act s) (k_fr s) (k_susp s) (k_tcp s) (k_delta s) (k_traj s) (k_over s).
Definition set_jm m s := KSt (k_ctl s) m (k_jv s) (k_cv s) (k_act s) (k_fr s) (k_susp s) (k_tcp s) (k_delta s) (k_traj s) (k_over s).
Definition set_jv v s := KSt (k_ctl s) (k_jm s) v (k_cv s) (k_act s) (k_fr s) (k_susp s) (k_tcp s) (k_delta s) (k_traj s) (k_over s).
Definition set_cv v s := KSt (k_ctl s) (k_jm s) (k_jv s) v (k_act s) (k_fr s) (k_susp s) (k_tcp s) (k_delta s) (k_traj s) (k_over s).
Definition set_act a s := KSt (k_ctl s) (k_jm s) (k_jv s) (k_cv s) a (k_fr s) (k_susp s) (k_tcp s) (k_delta s) (k_traj s) (k_over s).
Definition set_fr f s := KSt (k_ctl s) (k_jm s) (k_jv s) (k_cv s) (k_act s) f (k_susp s) (k_tcp s) (k_delta s) (k_traj s) (k_over s).
Definition set_susp b s := KSt (k_ctl s) (k_jm s) (k_jv s) (k_cv s) (k_act s) (k_fr s) b (k_tcp s) (k_delta s) (k_traj s) (k_over s).
Definition set_tcp b s := KSt (k_ctl s) (k_jm s) (k_jv s) (k_cv s) (k_act s) (k_fr s) (k_susp s) b (k_delta s) (k_traj s) (k_over s).
Definition set_delta d s := KSt (k_ctl s) (k_jm s) (k_jv s) (k_cv s) (k_act s) (k_fr s) (k_susp s) (k_tcp s) d (k_traj s) (k_over s).
Definition set_traj t s := KSt (k_ctl s) (k_jm s) (k_jv s) (k_cv s) (k_act s) (k_fr s) (k_susp s) (k_tcp s) (k_delta s) t (k_over s).
Definition set_over s := KSt (k_ctl s) (k_jm s) (k_jv s) (k_cv s) (k_act s) (k_fr s) (k_susp s) (k_tcp s) (k_delta s) (k_traj s) true.

(** KeyboardController.cpp 757-808: issueStop; [ok] is the answer of act *)
Definition issueStop (c : k_cfg) (ok : bool) (s : k_st) : list k_cmd * k_st :=
  let '(cs, s) :=
    if k_cart c then
      let '(ca, s) := if Z.eqb (k_act s) VOCAB_CC_ACTUATOR_NONE then ([], s)
                      else ([KAct VOCAB_CC_ACTUATOR_STOP_GRIPPER ok], if ok then set_act VOCAB_CC_ACTUATOR_NONE s else s) in
      let s := if k_thread c then set_susp true s else s in
      (ca ++ [KStop], s)
    else if k_board c then
      (match k_jm s with JPosition => [KPosStop] | JVelocity => [KVelStop] end, s)
    else ([], s) in
  let s := if k_board c then set_jv (repeat 0 (length (k_jv s))) s else s in
  let s := if k_cart c then set_cv (repeat 0 (length (k_cv s))) s else s in
  (cs, set_ctl NotControlling s).

(** KeyboardController.cpp 481-574: incrementOrDecrementJointCommand; [None] is std::clamp with its limits in the wrong order,
    which is undefined. A getEncoders that answers fewer values leaves the zeros of line 515 in place. *)
Definition jointCommand (c : k_cfg) (j : nat) (o : k_op) (e : k_env) (s : k_st) : option (list k_cmd * k_st) :=
  let give_up cs s := let '(c2, s2) := issueStop c (e_act e 1) s in Some (cs ++ c2, s2) in
  if negb (k_board c) then Some (issueStop c (e_act e 0) s)
  else
    let '(cs, s) := if negb (is_mode (k_ctl s) JointMode) then issueStop c (e_act e 0) s else ([], s) in
    if Nat.leb (k_axes c) j then give_up cs s
    else
      match k_jm s with
      | JPosition =>
          let cs := cs ++ [KPosModes (k_axes c)] in
          if negb (e_modes e) then give_up cs s
          else match e_encs e with
               | None => give_up cs s
               | Some q =>
                   let x := apply_op o (nth j q 0) (k_pstep c) in
                   let lo := nth j (k_min c) 0 in
                   let hi := nth j (k_max c) 0 in
                   let bad := Rltb x lo || Rltb hi x in
                   if bad && Rltb hi lo then None
                   else
                     let x := if bad then (if Rltb x lo then lo else if Rltb hi x then hi else x) else x in
                     let cs := cs ++ [KPosMove j x] in
                     if negb (e_move e) then give_up cs s else Some (cs, set_ctl JointMode s)
               end
      | JVelocity =>
          let cs := cs ++ [KVelModes (k_axes c)] in
          if negb (e_modes e) then give_up cs s
          else
            let v := apply_op o (nth j (k_jv s) 0) (k_vstep c) in
            let v := if Rltb (nth j (k_maxv c) 0) (Rabs v) then apply_op o 0 1 * nth j (k_maxv c) 0 else v in
            let s := set_jv (put j v (k_jv s)) s in
            let cs := cs ++ [KVelMove j v] in
            if negb (e_move e) then give_up cs s else Some (cs, set_ctl JointMode s)
      end.

(** LinearTrajectoryThread.cpp 49-93: configure *)
Definition thread_configure (c : k_cfg) (v : list R) (e : k_env) (s : k_st) : bool * list k_cmd * k_st :=
  let p := if k_streaming c then [KPreset VOCAB_CC_POSE] else [] in
  if k_streaming c && negb (e_preset e) then (false, p, s)
  else if k_tcp s then (true, p, set_delta (map (fun x => k_period c / 1000 * x) v) s)
  else match e_stat e with
       | None => (false, p, s)
       | Some x => (true, p, set_traj (Some (KLine (vectorToFrame x) (vectorToTwist v) (e_now e))) s)
       end.

(** KDL: Path_Line from a frame and a twist (in the base axes, for one unit of time) with equivalent radius 1, whose orientation turns around
    a single axis (RotationalInterpolation_SingleAxis); VelocityProfile_Rectangular with maximum velocity 10 and the
    duration 10 / length for ten units of path; Trajectory_Segment::Pos. A path of zero length divides by zero ([None]). *)
Definition line_pos (l : k_line) (t : R) : option frame :=
  let h := l_start l in
  let vel := t_vel (l_twist l) in
  let w := t_rot (l_twist l) in
  let dist := if Rltb (norm vel) kdl_eps then 0 else norm vel in
  let '(axis, alpha) := GetRotAngle (mm (mT (fM h)) (mm (Rot w (norm w)) (fM h))) in
  let '(len, scalerot, scalelin) :=
    if negb (Reqb alpha 0) && Rltb dist alpha then (alpha, 1, dist / alpha)
    else if negb (Reqb dist 0) then (dist, alpha / dist, 1)
    else (0, 1, 1) in
  if Reqb len 0 then None
  else
    let v := if Rltb 10 len then 10 else len in
    let s := if Rltb t 0 then 0 else if Rltb (10 / v) t then 10 else v * t in
    Some (F (mm (fM h) (Rot2 axis (s * scalerot))) (vadd (fp h) (vscale (s * scalelin) (normalize vel)))).

(** KeyboardController.cpp 75-89: roundZeroes *)
Definition roundZeroes (v : list R) : list R := map (fun x => if Rltb (Rabs x) (1 / 1000000) then 0 else x) v.

(** KeyboardController.cpp 576-630: incrementOrDecrementCartesianCommand *)
Definition cartCommand (c : k_cfg) (i : nat) (o : k_op) (e : k_env) (s : k_st) : list k_cmd * k_st :=
  if negb (k_cart c) then issueStop c (e_act e 0) s
  else
    let '(cs, s) := if negb (is_mode (k_ctl s) CartMode) then issueStop c (e_act e 0) s else ([], s) in
    let step := if Nat.ltb i 3 then 5 / 1000 else 1 / 100 in
    let s := set_cv (put i (apply_op o (nth i (k_cv s) 0) step) (k_cv s)) s in
    if forallb (fun x => Reqb x 0) (roundZeroes (k_cv s)) then
      let s := set_cv (repeat 0 6) s in
      if k_thread c then (cs, set_ctl CartMode (set_susp true s))
      else (cs ++ [KMovv (k_cv s)], set_ctl CartMode s)
    else if k_thread c then
      let '(ok, c2, s) := thread_configure c (k_cv s) e s in
      if negb ok then (cs ++ c2, s)
      else (cs ++ c2, set_ctl CartMode (set_susp false s))
    else (cs ++ [KMovv (k_cv s)], set_ctl CartMode s).

(** KeyboardController.cpp 632-655: toggleJointMode *)
Definition toggleJointMode (c : k_cfg) (e : k_env) (s : k_st) : list k_cmd * k_st :=
  if negb (k_board c) then issueStop c (e_act e 0) s
  else
    let '(cs, s) := issueStop c (e_act e 0) s in
    (cs, set_jm (match k_jm s with JPosition => JVelocity | JVelocity => JPosition end) s).

(** KeyboardController.cpp 657-704: toggleReferenceFrame. The frame is one of the two, by configure (line 238). *)
Definition toggleReferenceFrame (c : k_cfg) (e : k_env) (s : k_st) : list k_cmd * k_st :=
  if negb (k_cart c) then issueStop c (e_act e 0) s
  else
    let '(cs, s) := issueStop c (e_act e 0) s in
    let f := if Z.eqb (k_fr s) BASE_FRAME then TCP_FRAME else BASE_FRAME in
    let cs := cs ++ [KFrame f] in
    if negb (e_frame e) then (cs, s)
    else
      let s := set_fr f s in
      (cs, if k_thread c then set_tcp (Z.eqb f TCP_FRAME) s else s).

(** KeyboardController.cpp 706-723: actuateTool *)
Definition actuateTool (c : k_cfg) (a : Z) (e : k_env) (s : k_st) : list k_cmd * k_st :=
  if negb (k_cart c) then issueStop c (e_act e 0) s
  else ([KAct a (e_act e 0)], if e_act e 0 then set_act a s else s).

(** KeyboardController.cpp 725-739, 741-755: the two keys that only print *)
Definition printJoints (c : k_cfg) (e : k_env) (s : k_st) : list k_cmd * k_st :=
  if negb (k_board c) then issueStop c (e_act e 0) s else ([], s).
Definition printCart (c : k_cfg) (e : k_env) (s : k_st) : list k_cmd * k_st :=
  if negb (k_cart c) then issueStop c (e_act e 0) s else ([], s).

(** KeyboardController.cpp 308-450: what a key asks for *)
Inductive k_action := AExit | AHelp | APrintJ | APrintC | AJoint (j : nat) (o : k_op) | ACart (i : nat) (o : k_op) | AJMode | AFrame | ATool (a : Z) | AStop.
Local Open Scope char_scope.
Definition key_action (k : ascii) : k_action :=
  match k with
  | "027" => AExit | "?" => AHelp | "j" => APrintJ | "p" => APrintC
  | "1" => AJoint 0 Inc | "q" => AJoint 0 Dec | "2" => AJoint 1 Inc | "w" => AJoint 1 Dec | "3" => AJoint 2 Inc | "e" => AJoint 2 Dec
  | "4" => AJoint 3 Inc | "r" => AJoint 3 Dec | "5" => AJoint 4 Inc | "t" => AJoint 4 Dec | "6" => AJoint 5 Inc | "y" => AJoint 5 Dec
  | "7" => AJoint 6 Inc | "u" => AJoint 6 Dec | "8" => AJoint 7 Inc | "i" => AJoint 7 Dec | "9" => AJoint 8 Inc | "o" => AJoint 8 Dec
  | "a" => ACart 0 Inc | "z" => ACart 0 Dec | "s" => ACart 1 Inc | "x" => ACart 1 Dec | "d" => ACart 2 Inc | "c" => ACart 2 Dec
  | "f" => ACart 3 Inc | "v" => ACart 3 Dec | "g" => ACart 4 Inc | "b" => ACart 4 Dec | "h" => ACart 5 Inc | "n" => ACart 5 Dec
  | "0" => AJMode | "m" => AFrame
  | "k" => ATool VOCAB_CC_ACTUATOR_OPEN_GRIPPER | "l" => ATool VOCAB_CC_ACTUATOR_CLOSE_GRIPPER
  | _ => AStop
  end.
Local Close Scope char_scope.

(** KeyboardController.cpp 308-450: updateModule with a key. The escape key calls yarp::os::RFModule::stopModule, which calls interruptModule
    (452-459: issueStop). *)
Definition pressKey (c : k_cfg) (k : ascii) (e : k_env) (s : k_st) : option (list k_cmd * k_st) :=
  match key_action k with
  | AExit => let '(cs, s) := issueStop c (e_act e 0) s in Some (cs, set_over s)
  | AHelp => Some ([], s)
  | APrintJ => Some (printJoints c e s)
  | APrintC => Some (printCart c e s)
  | AJoint j o => jointCommand c j o e s
  | ACart i o => Some (cartCommand c i o e s)
  | AJMode => Some (toggleJointMode c e s)
  | AFrame => Some (toggleReferenceFrame c e s)
  | ATool a => Some (actuateTool c a e s)
  | AStop => Some (issueStop c (e_act e 0) s)
  end.

(** LinearTrajectoryThread.cpp 95-117: run; [None] when there is no trajectory yet *)
Definition thread_run (s : k_st) (now : R) : option (list k_cmd) :=
  if k_tcp s then Some [KPose (k_delta s)]
  else match k_traj s with
       | None => None
       | Some l => Some [match line_pos l (now - l_time l) with Some h => KPose (frameToVector h) | None => KPoseNaN end]
       end.

(** What happens while the module runs: a key is pressed, or the period of the thread is over. After the escape key nothing is read;
    the thread goes on until close (463-476) stops it. *)
Inductive k_event := EKey (k : ascii) (e : k_env) | ETick (now : R).
Definition k_step (c : k_cfg) (ev : k_event) (s : k_st) : option (list k_cmd * k_st) :=
  match ev with
  | EKey k e => if k_over s then Some ([], s) else pressKey c k e s
  | ETick now => if k_thread c && negb (k_susp s) then match thread_run s now with Some cs => Some (cs, s) | None => None end
                 else Some ([], s)
  end.
(** The commands of a run, one list per event *)
Fixpoint k_run (c : k_cfg) (evs : list k_event) (s : k_st) : option (list (list k_cmd) * k_st) :=
  match evs with
  | [] => Some ([], s)
  | ev :: evs =>
      match k_step c ev s with
      | None => None
      | Some (cs, s) => match k_run c evs s with None => None | Some (css, s) => Some (cs :: css, s) end
      end
  end.

(** KeyboardController.cpp 112-306: configure. [o_robot]: the answers of the control board (axes, position and velocity limits), jointMode and
    the two steps; [o_cart]: the answers of getParameter and getParameters (is the streaming command there), the pose option and its period.
    The opening of devices and the angle representation are left out. *)
Record k_robot := KRobot { r_axes : option nat; r_limits : nat -> option (R * R); r_vlimits : nat -> option (R * R);
                           r_mode : string; r_pstep : R; r_vstep : R }.
Record k_carto := KCarto { c_frame : option R; c_pose : bool; c_period : R; c_params : option bool }.
Fixpoint all_some {A} (l : list (option A)) : option (list A) :=
  match l with
  | [] => Some []
  | None :: _ => None
  | Some x :: l => match all_some l with Some l => Some (x :: l) | None => None end
  end.
Definition k_configure_robot (o : option k_robot) : option (k_cfg -> k_cfg) * k_jmode :=
  match o with
  | None => (Some (fun c => c), JVelocity)
  | Some r =>
      match r_axes r with
      | None => (None, JVelocity)
      | Some n =>
          if Nat.ltb 9 n then (None, JVelocity)
          else match all_some (map (r_limits r) (seq 0 n)), all_some (map (r_vlimits r) (seq 0 n)) with
               | Some l, Some v =>
                   let f c := KCfg true n (map fst l) (map snd l) (map snd v) (r_pstep r) (r_vstep r)
                                   (k_cart c) (k_thread c) (k_period c) (k_streaming c) in
                   if String.eqb (r_mode r) "pos" then (Some f, JPosition)
                   else if String.eqb (r_mode r) "vel" then (Some f, JVelocity)
                   else (None, JVelocity)
               | _, _ => (None, JVelocity)
               end
      end
  end.
Definition k_configure_cart (o : option k_carto) (c : k_cfg) : option (k_cfg * Z) :=
  match o with
  | None => Some (c, BASE_FRAME)
  | Some a =>
      match c_frame a with
      | None => None
      | Some f =>
          if Reqb f (IZR BASE_FRAME) || Reqb f (IZR TCP_FRAME) then
            let fr := if Reqb f (IZR BASE_FRAME) then BASE_FRAME else TCP_FRAME in
            let mk st := KCfg (k_board c) (k_axes c) (k_min c) (k_max c) (k_maxv c) (k_pstep c) (k_vstep c) true (c_pose a) (c_period a) st in
            if c_pose a then match c_params a with None => None | Some st => Some (mk st, fr) end
            else Some (mk false, fr)
          else None
      end
  end.
Definition k_configure (r : option k_robot) (a : option k_carto) : option (list k_cmd * k_cfg * k_st) :=
  match r, a with
  | None, None => None
  | _, _ =>
      let c0 := KCfg false 0 [] [] [] 0 0 false false 0 false in
      match k_configure_robot r with
      | (None, _) => None
      | (Some f, jm) =>
          match k_configure_cart a (f c0) with
          | None => None
          | Some (c, fr) =>
              let s := KSt NotControlling jm (repeat 0 (k_axes c)) (if k_cart c then repeat 0 6 else []) VOCAB_CC_ACTUATOR_NONE fr
                           true (k_thread c && Z.eqb fr TCP_FRAME) [] None false in
              let '(cs, s) := issueStop c true s in
              Some (cs, c, s)
          end
      end
  end.
