(** The ASIBOT solver's inverse kinematics on doubles: from the target, once its orientation has
    been turned into the two angles Y, Z, to the joint angles.

    Simplified: the target is given as position, oy and oz (what decodePose gives,
    ICartesianSolverImpl.cpp 341-347, modelled on real numbers in Asibot.v); the vectors of joint
    limits and the guess have five entries. The functions of the C library are parameters. *)
From Coq Require Import List ZArith Bool.
From Verif Require Import F64.
Import ListNotations.

(** std::sin, std::cos, std::atan2 *)
Record libm := Libm { lsin : f64 -> f64; lcos : f64 -> f64; latan2 : f64 -> f64 -> f64 }.

(** AsibotSolver.hpp 90: the lengths of the links; DeviceDriverImpl.cpp 22-35 *)
Record links := Links { A0 : f64; A1 : f64; A2 : f64; A3 : f64 }.
Definition default_links : links := Links (lit 3 1) (lit 4 1) (lit 4 1) (lit 3 1).

(** KinematicRepresentation.cpp 523-526, KDL::rad2deg = 57.2957795130823208767981548141 *)
Definition rad2deg : f64 := lit 5729577951308232 14.
Definition radToDeg (x : f64) : f64 := fmul x rad2deg.

(** the angles of ICartesianSolverImpl.cpp 350-391, in radians *)
Record angles := Angles { oz : f64; t1u : f64; t1d : f64; t2 : f64; t3u : f64; t3d : f64 }.

(** ICartesianSolverImpl.cpp 350-391: the closed form; [None]: "Target out of reach" *)
Definition closed_form (m : libm) (s : links) (x y z oyPd : f64) : option angles :=
  let ozd := latan2 m y x in
  let prPd := fsqrt (fadd (fmul x x) (fmul y y)) in
  let phPd := fsub z (A0 s) in
  if fltb (fadd (fadd (A1 s) (A2 s)) (A3 s)) (fsqrt (fadd (fmul prPd prPd) (fmul phPd phPd))) then None else
  let prWd := fsub prPd (fmul (A3 s) (lsin m oyPd)) in
  let phWd := fsub phPd (fmul (A3 s) (lcos m oyPd)) in
  let len_2 := fadd (fmul phWd phWd) (fmul prWd prWd) in
  if fltb (fadd (A1 s) (A2 s)) (fsqrt len_2) then None else
  let ct2 := fdiv (fsub (fsub len_2 (fmul (A1 s) (A1 s))) (fmul (A2 s) (A2 s))) (fmul (fmul (ofZ 2) (A1 s)) (A2 s)) in
  let st2 := fsqrt (fsub (ofZ 1) (fmul ct2 ct2)) in
  let t2Rad := latan2 m st2 ct2 in
  let a := fadd (A1 s) (fmul (A2 s) ct2) in
  let b := fmul (A2 s) st2 in
  let st1u := fdiv (fsub (fmul a prWd) (fmul b phWd)) len_2 in
  let ct1u := fdiv (fadd (fmul a phWd) (fmul b prWd)) len_2 in
  let st1d := fdiv (fadd (fmul a prWd) (fmul b phWd)) len_2 in
  let ct1d := fdiv (fsub (fmul a phWd) (fmul b prWd)) len_2 in
  let t1uRad := latan2 m st1u ct1u in
  let t1dRad := latan2 m st1d ct1d in
  Some (Angles ozd t1uRad t1dRad t2Rad (fsub (fsub oyPd t1uRad) t2Rad) (fadd (fsub oyPd t1dRad) t2Rad)).

(** AsibotConfiguration.cpp 17: eps, 0.001 degrees *)
Definition eps : f64 := lit 1 3.

(** AsibotConfiguration.cpp 19-22: checkJointInLimits *)
Definition checkJointInLimits (q lo hi : f64) : bool := fleb (fsub lo eps) q && fleb q (fadd hi eps).

(** AsibotConfiguration.cpp 24-44: normalizeAngle *)
Definition normalizeAngle (q : f64) : f64 :=
  if fltb (ofZ 180) q then fsub q (ofZ 360)
  else if fleb q (ofZ (-180)) then fadd q (ofZ 360)
  else if fltb (fabs q) eps then fzero
  else q.

(** AsibotConfiguration.hpp 82-114: Pose *)
Record pose := Pose { joints : list f64; valid : bool; forward : bool; up : bool }.

(** AsibotConfiguration.cpp 115-132: checkJointsInLimits *)
Fixpoint checkJointsInLimits (q lo hi : list f64) : bool :=
  match q, lo, hi with
  | v :: q', l :: lo', h :: hi' => checkJointInLimits v l h && checkJointsInLimits q' lo' hi'
  | _, _, _ => true
  end.

(** AsibotConfiguration.cpp 103-113 (storeAngles) and the check after each call, 56-61 *)
Definition stored (lo hi : list f64) (qs : list f64) (f u : bool) : pose :=
  let q := map normalizeAngle qs in Pose q (checkJointsInLimits q lo hi) f u.

(** AsibotConfiguration.cpp 47-101: configure; [None] is the answer false *)
Definition configure (lo hi : list f64) (q1 q2u q2d q3 q4u q4d q5 : f64) : option (list pose) :=
  if fltb eps (fabs (fsub (fadd (fadd q2u q3) q4u) (fadd (fsub q2d q3) q4d))) then None
  else
    let ps := [stored lo hi [q1; q2u; q3; q4u; q5] true true;
               stored lo hi [q1; q2d; fneg q3; q4d; q5] true false;
               stored lo hi [fadd q1 (ofZ 180); fneg q2u; fneg q3; fneg q4u; fadd q5 (ofZ 180)] false true;
               stored lo hi [fadd q1 (ofZ 180); fneg q2d; q3; fneg q4d; fadd q5 (ofZ 180)] false false] in
    if existsb valid ps then Some ps else None.

(** AsibotConfigurationLeastOverallAngularDisplacement.cpp 85-94: getDiffs *)
Fixpoint getDiffs (guess q : list f64) : list f64 :=
  match guess, q with
  | g :: guess', v :: q' => fabs (fsub g v) :: getDiffs guess' q'
  | _, _ => []
  end.

(** std::map<double, const Pose *>: increasing keys, the first insertion of a key stays *)
Fixpoint map_insert (k : f64) (p : pose) (m : list (f64 * pose)) : list (f64 * pose) :=
  match m with
  | [] => [(k, p)]
  | (k', p') :: m' => if fltb k k' then (k, p) :: m else if fltb k' k then (k', p') :: map_insert k p m' else m
  end.

(** what the solver answers: false, joint angles, or nothing that can be said of it: a map some of
    whose keys are NaN, and others are not, is undefined behaviour, because < does not order them
    (keys that are all NaN are equivalent to one another) *)
Inductive answer := Refused | Found (q : list f64) | Undefined.

(** AsibotConfigurationLeastOverallAngularDisplacement.cpp 22-48 *)
Definition displacement (guess : list f64) (p : pose) : f64 := fold_left fadd (getDiffs guess (joints p)) fzero.
Definition displacements (guess : list f64) (ps : list pose) : list (f64 * pose) :=
  fold_left (fun m p => if valid p then map_insert (displacement guess p) p m else m) ps [].

(** AsibotConfigurationLeastOverallAngularDisplacement.cpp 16-83: findOptimalConfiguration, and
    retrieveAngles *)
Definition findOptimal (guess : list f64) (ps : list pose) : answer :=
  let keys := map (displacement guess) (filter valid ps) in
  if existsb isnan keys && negb (forallb isnan keys) then Undefined
  else
    match displacements guess ps with
    | [] => Refused
    | [(_, a)] => Found (joints a)
    | (_, a) :: (_, b) :: _ =>
        if Bool.eqb (forward b) (forward a) then
          let da := nth 1 (getDiffs guess (joints a)) fzero in
          let db := nth 1 (getDiffs guess (joints b)) fzero in
          Found (joints (if fltb db da || (feqb db da && up b) then b else a))
        else Found (joints a)
    end.

(** ICartesianSolverImpl.cpp 341-417: invKin, from the decoded target on *)
Definition invKin (m : libm) (s : links) (lo hi : list f64) (x y z oy oz5 : f64) (guess : list f64) : answer :=
  match closed_form m s x y z oy with
  | None => Refused
  | Some a =>
      match configure lo hi (radToDeg (oz a)) (radToDeg (t1u a)) (radToDeg (t1d a)) (radToDeg (t2 a)) (radToDeg (t3u a)) (radToDeg (t3d a)) (radToDeg oz5) with
      | None => Refused
      | Some ps => findOptimal guess ps
      end
  end.
