(** What movj and a streamed pose send to the joints, on doubles, with the ASIBOT solver or another
    one.

    Simplified: as in Rounded.v; the calls to the robot succeed except for reading the encoders
    (Bcc.v and BccMore.v model their failures), and the control modes are right. *)
From Coq Require Import List.
From Verif Require Import F64 Rounded AsibotF64.
Import ListNotations.

(** the solver's invKin: target, guess, answer *)
Definition solver := list f64 -> list f64 -> option (list f64).

(** ICartesianControlImpl.cpp 429-471: pose, once preset: the joint positions sent with setPositions,
    if any are sent *)
Definition pose (invKin : solver) (js : list joint) (encoders : option (list f64)) (x : list f64) : option (list f64) :=
  match encoders with
  | None => None
  | Some currentQ =>
      match invKin x currentQ with
      | None => None
      | Some q => if checkJointLimitsMoving js currentQ (differences q currentQ) then Some q else None
      end
  end.

(** ICartesianControlImpl.cpp 89-146: movj: the speeds sent with setRefSpeeds and the positions sent
    with positionMove, if any are sent. [refs]: the reference speeds that the robot has. *)
Definition movj (invKin : solver) (refs : list f64) (encoders : option (list f64)) (xd : list f64) : option (list f64 * list f64) :=
  match encoders with
  | None => None
  | Some currentQ =>
      match invKin xd currentQ with
      | None => None
      | Some qd =>
          let (moves, vmo) := computeIsocronousSpeeds refs currentQ qd in
          if moves then Some (vmo, qd) else None
      end
  end.

(** AsibotSolver/ICartesianSolverImpl.cpp 314-417: invKin. [decode] stands for the lines 316-348: the
    reference frame, the TCP frame and the representation of the pose; nothing is assumed of it. The
    limits are those of the joints (the controller hands them on to the solver as text,
    DeviceDriverImpl.cpp 142-186; simplified: the text stands for the same doubles). [None] also stands for undefined behaviour, which C160_defined excludes. *)
Definition asibot (m : libm) (s : links) (decode : list f64 -> list f64 -> option (f64 * f64 * f64 * f64 * f64)) (js : list joint) : solver :=
  fun x guess =>
    match decode x guess with
    | None => None
    | Some (px, py, pz, oy, oz5) =>
        match invKin m s (map qMin js) (map qMax js) px py pz oy oz5 guess with Found q => Some q | _ => None end
    end.
