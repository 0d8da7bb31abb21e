(** Model of programs/streamingDeviceController: the controller (StreamingDeviceController.cpp), its three
    input devices (SpnavSensorDevice.cpp, LeapMotionSensorDevice.cpp, WiimoteSensorDevice.cpp on top of
    StreamingDevice.cpp) and the centroid handler (CentroidTransform.cpp).

    Simplifications: doubles are reals, divisions by zero give [None]; the option parser and the opening of ports and
    devices are not modelled; what the sensors, the ports and the Cartesian controller answer comes from oracles. *)
From Coq Require Import Reals List Bool String ZArith.
From Verif Require Import Kdl KdlRot KinRep KdlSolver Vocab Ft.
Import ListNotations.
Open Scope R_scope.
Local Notation S := Datatypes.S.
Local Notation length := List.length.

(** Calls on ICartesianControl: pose, twist, act, setParameter (streaming command and frame), stopControl *)
Inductive s_cmd := SPose (v : list R) | STwist (v : list R) | SAct (a : Z) | SPreset (m : Z) | SFrame (f : Z) | SStop.

(** StreamingDevice.cpp 97-139: configureFixedAxes; [None] is a value that is not a list *)
Definition axis_names : list string := ["x"; "y"; "z"; "rotx"; "roty"; "rotz"]%string.
Definition fix_axis (fixed : list bool) (name : string) : list bool :=
  map (fun nf => String.eqb (fst nf) name || snd nf) (combine axis_names fixed).
Definition configureFixedAxes (v : option (list string)) : list bool :=
  match v with
  | None => repeat false 6
  | Some l => fold_left fix_axis l (repeat false 6)
  end.

(** StreamingDevice.cpp 62-77: transformData *)
Definition base_transform (fixed : list bool) (data : list R) (scaling : R) : option (list R) :=
  if Reqb scaling 0 && existsb negb fixed then None
  else Some (map (fun fd => if fst fd : bool then 0 else snd fd / scaling) (combine fixed data)).
(** StreamingDevice.cpp 79-95: hasValidMovementData *)
Definition base_valid (act : Z) (data : list R) : bool :=
  if negb (Z.eqb act VOCAB_CC_ACTUATOR_NONE) then false else existsb (fun d => negb (Reqb d 0)) data.

(** SpnavSensorDevice.cpp 117-144 and LeapMotionSensorDevice.cpp 185-209: the state of the gripper *)
Definition next_actuator (close open : bool) (act : Z) : Z :=
  if close then VOCAB_CC_ACTUATOR_CLOSE_GRIPPER
  else if open then VOCAB_CC_ACTUATOR_OPEN_GRIPPER
  else if negb (Z.eqb act VOCAB_CC_ACTUATOR_NONE) then
    if negb (Z.eqb act VOCAB_CC_ACTUATOR_STOP_GRIPPER) then VOCAB_CC_ACTUATOR_STOP_GRIPPER else VOCAB_CC_ACTUATOR_NONE
  else VOCAB_CC_ACTUATOR_NONE.

(** ** SpnavSensorDevice.cpp *)
Record spnav := Spnav { sp_pose : bool; sp_gain : R; sp_fixed : list bool; sp_data : list R; sp_cur : list R;
                        sp_close : bool; sp_open : bool; sp_act : Z }.
(** 66-91: acquireData; [r] is what read stores in its argument *)
Definition spnav_acquire (d : spnav) (r : list R) : option spnav :=
  if Nat.eqb (length r) 6 || Nat.eqb (length r) 8 then
    let '(c, o) := if Nat.eqb (length r) 8 then (Reqb (nth 6 r 0) 1, Reqb (nth 7 r 0) 1) else (sp_close d, sp_open d) in
    Some (Spnav (sp_pose d) (sp_gain d) (sp_fixed d) (firstn 6 r) (sp_cur d) c o (sp_act d))
  else None.
Definition spnav_set (d : spnav) (data : list R) : spnav :=
  Spnav (sp_pose d) (sp_gain d) (sp_fixed d) data (sp_cur d) (sp_close d) (sp_open d) (sp_act d).
(** 93-115: transformData; [None] also when currentX has less than six components *)
Definition spnav_transform (d : spnav) (scaling : R) : option spnav :=
  if sp_pose d then
    if Nat.ltb (length (sp_cur d)) 6 || (Reqb scaling 0 && existsb negb (sp_fixed d)) then None
    else Some (spnav_set d (map (fun fxd => if fst (fst fxd) : bool then snd (fst fxd) else snd (fst fxd) + (sp_gain d / scaling) * snd fxd)
                                (combine (combine (sp_fixed d) (sp_cur d)) (sp_data d))))
  else match base_transform (sp_fixed d) (sp_data d) scaling with Some data => Some (spnav_set d data) | None => None end.
(** 117-144: getActuatorState *)
Definition spnav_actuator (d : spnav) : Z * spnav :=
  let a := next_actuator (sp_close d) (sp_open d) (sp_act d) in
  (a, Spnav (sp_pose d) (sp_gain d) (sp_fixed d) (sp_data d) (sp_cur d) (sp_close d) (sp_open d) a).
(** 146-164: hasValidMovementData *)
Definition spnav_valid (d : spnav) : bool :=
  if sp_pose d then existsb (fun fxd => negb (fst (fst fxd)) && negb (Reqb (snd fxd) (snd (fst fxd))))
                            (combine (combine (sp_fixed d) (sp_cur d)) (sp_data d))
  else base_valid (sp_act d) (sp_data d).
(** 166-181: sendMovementCommand. Line 174 writes six components of currentX; spnav_transform already requires them. *)
Definition spnav_send (d : spnav) : list s_cmd * spnav :=
  if sp_pose d then ([SPose (sp_data d)],
                     Spnav (sp_pose d) (sp_gain d) (sp_fixed d) (sp_data d) (sp_data d ++ skipn 6 (sp_cur d)) (sp_close d) (sp_open d) (sp_act d))
  else ([STwist (sp_data d)], d).
(** 183-190: stopMotion *)
Definition zeros6 : list R := repeat 0 6.
Definition spnav_stop (d : spnav) : list s_cmd := if sp_pose d then [] else [STwist zeros6].

(** What the Cartesian controller answers during initialize: is the streaming parameter there and accepted, is the
    frame accepted, what does stat answer *)
Record init_env := InitEnv { n_preset : bool; n_preset_ok : bool; n_frame_ok : bool; n_stat : option (list R) }.

(** 10-17, 32-64: constructor and initialize *)
Definition spnav_initialize (pose : bool) (gain : R) (fixed : list bool) (n : init_env) : list s_cmd * option spnav :=
  if pose && Rleb gain 0 then ([], None)
  else
    let p := if n_preset n then [SPreset (if pose then VOCAB_CC_POSE else VOCAB_CC_TWIST)] else [] in
    if n_preset n && negb (n_preset_ok n) then (p, None)
    else
      let p := p ++ [SFrame BASE_FRAME] in
      if negb (n_frame_ok n) then (p, None)
      else
        let cur := if pose then match n_stat n with Some x => x | None => zeros6 end else [] in
        (p, Some (Spnav pose gain fixed zeros6 cur false false VOCAB_CC_ACTUATOR_NONE)).

(** ** LeapMotionSensorDevice.cpp *)
Record leap := Leap { lp_pose : bool; lp_fixed : list bool; lp_data : list R; lp_ee_leap : frame; lp_base_leap : frame;
                      lp_offset : list R; lp_prev : frame; lp_time : R; lp_has : bool; lp_grab : bool; lp_pinch : bool; lp_act : Z }.
(** 107-139: acquireData *)
Definition leap_acquire (d : leap) (r : list R) : option leap :=
  if Nat.eqb (length r) 6 || Nat.eqb (length r) 8 then
    let '(h, g, p) := if Nat.eqb (length r) 8 then (true, Reqb (nth 6 r 0) 1, Reqb (nth 7 r 0) 1) else (lp_has d, lp_grab d, lp_pinch d) in
    let data := [nth 0 r 0 * / 1000; nth 1 r 0 * / 1000; nth 2 r 0 * / 1000; nth 3 r 0; nth 4 r 0; nth 5 r 0] in
    Some (Leap (lp_pose d) (lp_fixed d) data (lp_ee_leap d) (lp_base_leap d) (lp_offset d) (lp_prev d) (lp_time d) h g p (lp_act d))
  else None.
Definition leap_set (d : leap) (data : list R) : leap :=
  Leap (lp_pose d) (lp_fixed d) data (lp_ee_leap d) (lp_base_leap d) (lp_offset d) (lp_prev d) (lp_time d) (lp_has d) (lp_grab d) (lp_pinch d) (lp_act d).
(** 141-176: transformData *)
Definition leap_transform (d : leap) (scaling : R) : option leap :=
  if Reqb scaling 0 && existsb negb (firstn 3 (lp_fixed d)) then None
  else
    let get i := if nth i (lp_fixed d) false then 0
                 else let x := nth i (lp_data d) 0 - nth i (lp_offset d) 0 in if Nat.ltb i 3 then x / scaling else x in
    let rot := if negb (nth 3 (lp_fixed d) false) && negb (nth 4 (lp_fixed d) false) && negb (nth 5 (lp_fixed d) false)
               then RPY (get 3%nat) (get 4%nat) (get 5%nat) else mid in
    let hand := F rot (V (get 0%nat) (get 1%nat) (get 2%nat)) in
    Some (leap_set d (frameToVector (fmul (fmul (lp_base_leap d) hand) (finv (lp_ee_leap d))))).
(** 178-210: getActuatorState *)
Definition leap_actuator (d : leap) : Z * leap :=
  if negb (lp_has d) then (VOCAB_CC_ACTUATOR_NONE, d)
  else
    let a := next_actuator (lp_grab d) (lp_pinch d) (lp_act d) in
    (a, Leap (lp_pose d) (lp_fixed d) (lp_data d) (lp_ee_leap d) (lp_base_leap d) (lp_offset d) (lp_prev d) (lp_time d) (lp_has d) (lp_grab d) (lp_pinch d) a).
(** 212-232: sendMovementCommand; two commands with the same time stamp divide by zero *)
Definition leap_send (d : leap) (time : R) : option (list s_cmd * leap) :=
  if lp_pose d then Some ([SPose (lp_data d)], d)
  else
    let cur := vectorToFrame (lp_data d) in
    let d' := Leap (lp_pose d) (lp_fixed d) (lp_data d) (lp_ee_leap d) (lp_base_leap d) (lp_offset d) cur time (lp_has d) (lp_grab d) (lp_pinch d) (lp_act d) in
    if negb (Reqb (lp_time d) 0) then
      if Reqb (time - lp_time d) 0 then None
      else Some ([STwist (twistToVector (frame_diff_dt (lp_prev d) cur (time - lp_time d)))], d')
    else Some ([], d').
(** LeapMotionSensorDevice.hpp 39-40: stopMotion does nothing *)
Definition leap_stop (d : leap) : list s_cmd := [].
(** 18-44, 59-105: constructor and initialize; [rpy] is the rotation of leapFrameRPY, [first] the first reading *)
Definition leap_initialize (pose : bool) (fixed : list bool) (rpy : option mat) (n : init_env) (first : list R) : list s_cmd * option leap :=
  let p := if n_preset n then [SPreset (if pose then VOCAB_CC_POSE else VOCAB_CC_TWIST)] else [] in
  if n_preset n && negb (n_preset_ok n) then (p, None)
  else
    let p := p ++ [SFrame BASE_FRAME] in
    if negb (n_frame_ok n) then (p, None)
    else match n_stat n with
         | None => (p, None)
         | Some x =>
             let ee := match rpy with Some m => F m vzero | None => fid end in
             let d := Leap pose fixed zeros6 ee (fmul (vectorToFrame x) ee) [] fid 0 false false false VOCAB_CC_ACTUATOR_NONE in
             match leap_acquire d first with
             | None => (p, None)
             | Some d => (p, Some (Leap (lp_pose d) (lp_fixed d) (lp_data d) (lp_ee_leap d) (lp_base_leap d) (lp_data d) (lp_prev d) (lp_time d)
                                         (lp_has d) (lp_grab d) (lp_pinch d) (lp_act d)))
             end
         end.

(** ** WiimoteSensorDevice.cpp *)
Inductive wmode := W_NONE | W_FWD | W_BKWD | W_ROT.
(** the device has the fixed axes of its base class, but no function of it reads them *)
Record wii := Wii { w_pose : bool; w_step : R; w_fixed : list bool; w_data : list R; w_buffer : list R; w_mode : wmode }.
(** 66-85: acquireData *)
Definition wii_acquire (d : wii) (r : list R) : option wii :=
  if Nat.eqb (length r) 5 then Some (Wii (w_pose d) (w_step d) (w_fixed d) (w_data d) r (w_mode d)) else None.
(** 87-125: transformData *)
Definition wii_transform (d : wii) (scaling : R) : option wii :=
  let b i := nth i (w_buffer d) 0 in
  let a := Reqb (b 2%nat) 1 in let bb := Reqb (b 3%nat) 1 in let yaw := Reqb (b 4%nat) 1 in
  let mode := if a && bb then W_ROT else if a then W_FWD else if bb then W_BKWD else W_NONE in
  match mode with
  | W_NONE => Some (Wii (w_pose d) (w_step d) (w_fixed d) (w_data d) (w_buffer d) W_NONE)
  | _ =>
      if Reqb scaling 0 then None
      else Some (Wii (w_pose d) (w_step d) (w_fixed d)
             (if yaw then [0; - b 1%nat / scaling; b 0%nat / scaling] else [b 0%nat / scaling; - b 1%nat / scaling; 0]) (w_buffer d) mode)
  end.
(** 127-130: hasValidMovementData *)
Definition wii_valid (d : wii) : bool := match w_mode d with W_NONE => false | _ => true end.
(** 132-160: sendMovementCommand *)
Definition wii_send (d : wii) : list s_cmd :=
  let z := match w_mode d with W_FWD => Some (w_step d) | W_BKWD => Some (- w_step d) | W_ROT => Some 0 | W_NONE => None end in
  match z with
  | None => []
  | Some z => let xdot := 0 :: 0 :: z :: w_data d in [if w_pose d then SPose xdot else STwist xdot]
  end.
(** 162-169: stopMotion *)
Definition wii_stop (d : wii) : list s_cmd := if w_pose d then [] else [STwist zeros6].
(** 13-23, 38-64: constructor and initialize *)
Definition wii_initialize (pose : bool) (step : R) (fixed : list bool) (n : init_env) : list s_cmd * option wii :=
  if pose && Rleb step 0 then ([], None)
  else
    let p := if n_preset n then [SPreset (if pose then VOCAB_CC_POSE else VOCAB_CC_TWIST)] else [] in
    if n_preset n && negb (n_preset_ok n) then (p, None)
    else
      let p := p ++ [SFrame TCP_FRAME] in
      if negb (n_frame_ok n) then (p, None)
      else (p, Some (Wii pose step fixed (repeat 0 3) (repeat 0 5) W_NONE)).

(** ** The virtual functions of StreamingDevice *)
Inductive device := DSpnav (d : spnav) | DLeap (d : leap) | DWii (d : wii).
Definition acquire (d : device) (r : list R) : option device :=
  match d with
  | DSpnav d => option_map DSpnav (spnav_acquire d r)
  | DLeap d => option_map DLeap (leap_acquire d r)
  | DWii d => option_map DWii (wii_acquire d r)
  end.
Definition transform (d : device) (scaling : R) : option device :=
  match d with
  | DSpnav d => option_map DSpnav (spnav_transform d scaling)
  | DLeap d => option_map DLeap (leap_transform d scaling)
  | DWii d => option_map DWii (wii_transform d scaling)
  end.
(** StreamingDevice.hpp 66-69 for the Wiimote, whose actuator state never leaves NONE *)
Definition actuator (d : device) : Z * device :=
  match d with
  | DSpnav d => let '(a, d) := spnav_actuator d in (a, DSpnav d)
  | DLeap d => let '(a, d) := leap_actuator d in (a, DLeap d)
  | DWii d => (VOCAB_CC_ACTUATOR_NONE, DWii d)
  end.
Definition valid (d : device) : bool :=
  match d with DSpnav d => spnav_valid d | DLeap d => base_valid (lp_act d) (lp_data d) | DWii d => wii_valid d end.
Definition send (d : device) (time : R) : option (list s_cmd * device) :=
  match d with
  | DSpnav d => let '(c, d) := spnav_send d in Some (c, DSpnav d)
  | DLeap d => match leap_send d time with Some (c, d) => Some (c, DLeap d) | None => None end
  | DWii d => Some (wii_send d, DWii d)
  end.
Definition stop_motion (d : device) : list s_cmd :=
  match d with DSpnav d => spnav_stop d | DLeap d => leap_stop d | DWii d => wii_stop d end.

(** ** CentroidTransform.cpp *)
Record centroid := Centroid { ct_rot : mat; ct_perm : R; ct_last : R * R; ct_time : R }.
(** 42-58: acceptBottle; [now] is the time read by Stamp::update or by Time::now *)
Definition acceptBottle (c : centroid) (b : option (list R)) (now : R) : bool * centroid :=
  match b with
  | Some [x; y] => (true, Centroid (ct_rot c) (ct_perm c) (x, y) now)
  | Some _ => (false, c)
  | None => (Rleb (now - ct_time c) (ct_perm c), c)
  end.
(** 60-103: processStoredBottle: the new data of the device, [None] when it returns false *)
Definition processStoredBottle (c : centroid) (stat : option (list R)) (data : list R) : option (list R) :=
  match stat with
  | None => None
  | Some x =>
      let '(cx, cy) := ct_last c in
      let H := vectorToFrame x in
      let v_base := mv (mm (fM H) (ct_rot c)) (V 0 0 1) in
      let T := vectorToFrame data in
      let n := dot (fp T) v_base in
      if Rleb n 0 then None
      else
        let coords := V cx cy 0 in
        let tcp_axis := mv (RotZ (PI / 2)) coords in
        let base_axis := mv (mm (fM H) (ct_rot c)) tcp_axis in
        Some (frameToVector (F (Rot base_axis (norm coords * / 10)) (vscale n v_base)))
  end.

(** ** StreamingDeviceController.cpp *)
(** members that update reads or changes; [c_prox] and [c_cent] say that the ports are open *)
Record sdc := Sdc { c_dev : device; c_stopped : bool; c_scaling : R; c_prox : bool; c_high : Z; c_low : Z; c_nolow : bool;
                    c_cent : bool; c_centroid : centroid }.
(** what one execution of update meets: its argument, the reading of the sensor, the bottles waiting in the proximity and
    centroid ports, the clock and the answer of stat *)
Record u_in := UIn { u_time : R; u_reading : list R; u_prox : option (list R); u_bottle : option (list R); u_now : R; u_stat : option (list R) }.

(** 238-276: the alert level: the largest reading, or zero *)
Definition alert_level (l : list R) : R := fold_left (fun a x => if Rltb a x then x else a) l 0.
Inductive alert := NoAlert | LowAlert | HighAlert.
Definition proximity (c : sdc) (b : option (list R)) : alert :=
  if c_prox c then
    match b with
    | None | Some [] => NoAlert
    | Some l =>
        if Rltb (IZR (c_high c)) (alert_level l) then HighAlert
        else if negb (c_nolow c) && Rltb (IZR (c_low c)) (alert_level l) then LowAlert else NoAlert
    end
  else NoAlert.

Definition set_dev (c : sdc) (d : device) (stopped : bool) : sdc :=
  Sdc d stopped (c_scaling c) (c_prox c) (c_high c) (c_low c) (c_nolow c) (c_cent c) (c_centroid c).
Definition set_centroid (c : sdc) (k : centroid) : sdc :=
  Sdc (c_dev c) (c_stopped c) (c_scaling c) (c_prox c) (c_high c) (c_low c) (c_nolow c) (c_cent c) k.

(** 287-295: the centroid handler; configure (139-179) allows it with a SpaceNavigator only *)
Definition apply_centroid (c : sdc) (d : device) (i : u_in) : device * centroid :=
  if c_cent c then
    let '(ok, k) := acceptBottle (c_centroid c) (u_bottle i) (u_now i) in
    match d with
    | DSpnav s => if ok then match processStoredBottle k (u_stat i) (sp_data s) with Some data => (DSpnav (spnav_set s data), k) | None => (d, k) end
                  else (d, k)
    | _ => (d, k)
    end
  else (d, c_centroid c).

(** 228-313: update (it always returns true); [None] when it divides by zero or reads out of bounds *)
Definition update (c : sdc) (i : u_in) : option (list s_cmd * sdc) :=
  match acquire (c_dev c) (u_reading i) with
  | None => Some ([], c)
  | Some d =>
      match proximity c (u_prox i) with
      | HighAlert => Some (if c_stopped c then [] else stop_motion d, set_dev c d true)
      | al =>
          let scaling := match al with LowAlert => c_scaling c * 2 | _ => c_scaling c end in
          let '(a, d) := actuator d in
          let acts := if negb (Z.eqb a VOCAB_CC_ACTUATOR_NONE) then [SAct a] else [] in
          match transform d scaling with
          | None => None
          | Some d =>
              let '(d, k) := apply_centroid c d i in
              let c := set_centroid c k in
              if valid d then
                match send d (u_time i) with
                | None => None
                | Some (m, d) => Some (acts ++ m, set_dev c d false)
                end
              else Some (acts ++ (if c_stopped c then [] else stop_motion d), set_dev c d true)
          end
      end
  end.

(** A history of updates: the commands sent, oldest first *)
Fixpoint updates (c : sdc) (is : list u_in) : option (list s_cmd * sdc) :=
  match is with
  | [] => Some ([], c)
  | i :: is => match update c i with
               | None => None
               | Some (cs, c) => match updates c is with Some (cs', c) => Some (cs ++ cs', c) | None => None end
               end
  end.

(** 181: the state after configure *)
Definition configured_sdc (d : device) (scaling : R) (prox : bool) (high low : Z) (nolow cent : bool) (k : centroid) : sdc :=
  Sdc d true scaling prox high low nolow cent k.

(** 315-324: interruptModule *)
Definition interrupt_module : list s_cmd := [SStop].
