(** Model of programs/haarDetectionController (HaarDetectionController.cpp, GrabberResponder.cpp).

    Simplifications: doubles are reals; ports, devices and options are replaced by the records below; a reading is handled
    as a whole, before or after the loop of updateModule or between two passes of it, although it runs in a thread of its own; trusted:
    yarp::os::Contactable::interrupt lets no further reading through, and yarp::os::RFModule calls interruptModule only
    when the module is stopped from outside. *)
From Coq Require Import Reals List Bool ZArith.
From Verif Require Import Kdl Vocab.
Import ListNotations.
Open Scope R_scope.
Local Notation S := Datatypes.S.

(** calls on ICartesianControl: twist, stopControl, act, setParameter of the frame *)
Inductive h_cmd := HTwist (v : list R) | HStop | HAct (a : Z) | HFrame (f : Z).

(** GrabberResponder.hpp 37-41: isStopped, noApproach *)
Record grabber := Grabber { g_stopped : bool; g_noApproach : bool }.

(** GrabberResponder.cpp 22-72: onRead; the constants of lines 14-20 *)
Definition onRead (g : grabber) (b : list R) : list h_cmd * grabber :=
  match b with
  | [x; y] =>
      let '(tx, mx) := if Rltb 0 (Rabs x) then (x * / 10000, true) else (0, false) in
      let '(ty, my) := if Rltb 0 (Rabs y) then (y * / 10000, true) else (0, false) in
      if mx || my then ([HTwist [tx; - ty; if g_noApproach g then 0 else / 100; 0; 0; 0]], Grabber false (g_noApproach g))
      else if negb (g_stopped g) then ([HStop], Grabber true (g_noApproach g))
      else ([], Grabber true (g_noApproach g))
  | _ => ([], g)
  end.

(** what configure reads (disableSensors, noMove, noApproach) and what the devices and the network answer *)
Record h_env := HEnv { h_sensors : bool; h_noMove : bool; h_noApproach : bool;
                       e_cartesian : bool; e_sensors : bool; e_act : bool; e_frame : bool; e_connect : bool }.
(** the module: is the sensors device open, is the port of readings open to them, the responder *)
Record h_st := HSt { m_sensors : bool; m_port : bool; m_grabber : grabber }.

(** HaarDetectionController.cpp 27-110: configure *)
Definition h_configure (e : h_env) : list h_cmd * option h_st :=
  if negb (e_cartesian e) then ([], None)
  else if h_sensors e && negb (e_sensors e) then ([], None)
  else
    let cs := [HAct VOCAB_CC_ACTUATOR_OPEN_GRIPPER] in
    if negb (e_act e) then (cs, None)
    else if h_noMove e then (cs, Some (HSt (h_sensors e) false (Grabber true false)))
    else
      let cs := cs ++ [HFrame TCP_FRAME] in
      if negb (e_frame e) then (cs, None)
      else if negb (e_connect e) then (cs, None)
      else (cs, Some (HSt (h_sensors e) true (Grabber true (h_noApproach e)))).

(** what happens while the module runs: a reading arrives; the period is over, with the answer of hasTarget and the passes
    of the loop of lines 127-131, each with the readings that arrive in its delay *)
Inductive h_event := HRead (b : list R) | HUpdate (target : bool) (passes : list (list (list R))).

(** a reading arrives, readings arrive: the port lets them through to GrabberResponder or does not *)
Definition h_read (s : h_st) (b : list R) : list h_cmd * h_st :=
  let '(cs, g) := if m_port s then onRead (m_grabber s) b else ([], m_grabber s) in (cs, HSt (m_sensors s) (m_port s) g).
Fixpoint h_reads (s : h_st) (bs : list (list R)) : list h_cmd * h_st :=
  match bs with
  | [] => ([], s)
  | b :: bs => let '(cs, s) := h_read s b in let '(cs', s) := h_reads s bs in (cs ++ cs', s)
  end.
(** HaarDetectionController.cpp 124-131: the loop that closes the gripper *)
Fixpoint h_grasp (s : h_st) (passes : list (list (list R))) : list h_cmd * h_st :=
  match passes with
  | [] => ([], s)
  | bs :: passes => let '(cs, s) := h_reads s bs in let '(cs', s) := h_grasp s passes in (HAct VOCAB_CC_ACTUATOR_CLOSE_GRIPPER :: cs ++ cs', s)
  end.

(** HaarDetectionController.cpp 112-137: updateModule; the boolean is its return value *)
Definition h_update (s : h_st) (target : bool) (passes : list (list (list R))) : bool * list h_cmd * h_st :=
  if m_sensors s && target
  then let '(cs, s) := h_grasp (HSt false false (m_grabber s)) passes in (false, HStop :: cs, s)
  else (true, [], s).

(** a life of the module: until updateModule returns false or, at the end of the list, interruptModule (139-149).  Readings that
    arrive after that find the port interrupted. The boolean tells whether it ended by itself. *)
Fixpoint h_life (s : h_st) (evs : list h_event) : list h_cmd * bool :=
  match evs with
  | [] => ([HStop], false)
  | HRead b :: evs =>
      let '(cs, s) := h_read s b in let '(cs', r) := h_life s evs in (cs ++ cs', r)
  | HUpdate target passes :: evs =>
      let '(go, cs, s) := h_update s target passes in
      if go then let '(cs', r) := h_life s evs in (cs ++ cs', r) else (cs, true)
  end.
(** the commands of a run that has not ended *)
Fixpoint h_run (s : h_st) (evs : list h_event) : list h_cmd :=
  match evs with
  | [] => []
  | HRead b :: evs =>
      let '(cs, s) := h_read s b in cs ++ h_run s evs
  | HUpdate target passes :: evs =>
      let '(go, cs, s) := h_update s target passes in
      if go then cs ++ h_run s evs else cs
  end.
