(** Model of the trajectories of Orocos KDL that the Cartesian controller builds
    (ICartesianControlImpl.cpp 213-226, 271-285): Path_Line with RotationalInterpolation_SingleAxis,
    VelocityProfile_Trap, VelocityProfile_Rectangular and Trajectory_Segment.

    KDL is a dependency whose sources are not in /repo: part of the trusted base, like Kdl.v.
    Real arithmetic; a number that is not finite is [None]. *)
From Coq Require Import Reals List Bool.
From Verif Require Import Kdl KdlRot.
Open Scope R_scope.

(** ** KDL::Path_Line with its RotationalInterpolation_SingleAxis *)
Record path := Path { pt_start : frame; pt_dir : vec; pt_axis : vec; pt_len : R; pt_lin : R; pt_rot : R }.

(** what the two constructors have in common: start, displacement, orientation at the end, equivalent radius.
    Vector::Normalize returns zero for vectors shorter than epsilon. *)
Definition mk_path (start : frame) (disp : vec) (m_end : mat) (radius : R) : path :=
  let dist := if Rltb (norm disp) kdl_eps then 0 else norm disp in
  let r := GetRotAngle (mm (mT (fM start)) m_end) in
  let alpha := snd r in
  let mk := Path start (normalize disp) (fst r) in
  if negb (Reqb alpha 0) && Rltb dist (alpha * radius) then mk (alpha * radius) (dist / (alpha * radius)) (1 / radius)
  else if negb (Reqb dist 0) then mk dist 1 (alpha / dist)
  else mk 0 1 1.

(** Path_Line(startpos, endpos, orient, eqradius) *)
Definition path_line (a b : frame) (radius : R) : path := mk_path a (vsub (fp b) (fp a)) (fM b) radius.
(** Path_Line(startpos, twist_in_base, orient, eqradius): what the twist covers in one unit of time *)
Definition path_along (a : frame) (tw : twist) (radius : R) : path :=
  mk_path a (t_vel tw) (mm (Rot (t_rot tw) (norm (t_rot tw))) (fM a)) radius.

(** Path_Line::Pos(s), Path_Line::Vel(s, sd) *)
Definition path_pos (p : path) (s : R) : frame :=
  F (mm (fM (pt_start p)) (Rot2 (pt_axis p) (s * pt_rot p))) (vadd (fp (pt_start p)) (vscale (s * pt_lin p) (pt_dir p))).
Definition path_vel (p : path) (s sd : R) : twist :=
  Tw (vscale (sd * pt_lin p) (pt_dir p)) (mv (fM (pt_start p)) (vscale (sd * pt_rot p) (pt_axis p))).

(** ** KDL::VelocityProfile_Trap(maxvel, maxacc) *)
Record trap := Trap { tp_start : R; tp_end : R; tp_d : R; tp_t1 : option R; tp_t2 : option R;
  tp_a1 : R; tp_a2 : R; tp_a3 : R; tp_b1 : R; tp_b2 : R; tp_b3 : R; tp_c1 : R; tp_c2 : R; tp_c3 : R }.

(** SetProfile(pos1, pos2) *)
Definition trap_set (maxvel maxacc pos1 pos2 : R) : trap :=
  let s := if Rltb (pos2 - pos1) 0 then -1 else 1 in
  let x1 := s * maxacc * (maxvel / maxacc * (maxvel / maxacc)) / 2 in
  let dT := (pos2 - pos1 - 2 * x1) / (s * maxvel) in
  let '(t1, t2, d) :=
    if Rltb 0 dT then let t1 := maxvel / maxacc in let d := 2 * t1 + dT in (t1, d - t1, d)
    else let t1 := sqrt ((pos2 - pos1) / s / maxacc) in (t1, t1, t1 * 2) in
  let a3 := s * maxacc / 2 in let a2 := 0 in let a1 := pos1 in
  let b3 := 0 in let b2 := a2 + 2 * a3 * t1 - 2 * b3 * t1 in
  let b1 := a1 + t1 * (a2 + a3 * t1) - t1 * (b2 + t1 * b3) in
  let c3 := - s * maxacc / 2 in let c2 := b2 + 2 * b3 * t2 - 2 * c3 * t2 in
  let c1 := b1 + t2 * (b2 + b3 * t2) - t2 * (c2 + t2 * c3) in
  Trap pos1 pos2 d (Some t1) (Some t2) a1 a2 a3 b1 b2 b3 c1 c2 c3.

(** SetProfileDuration(pos1, pos2, newduration): [None] for a duration of zero; 0 / 0 is not a number *)
Definition stretch (k : R) (t : option R) : option R :=
  match t with None => None | Some t => if Reqb k 0 then None else Some (t / k) end.
Definition trap_duration (maxvel maxacc pos1 pos2 newduration : R) : option trap :=
  let p := trap_set maxvel maxacc pos1 pos2 in
  if Reqb newduration 0 then None else
  let k := tp_d p / newduration in
  if Rltb 1 k then Some p
  else Some (Trap (tp_start p) (tp_end p) newduration (stretch k (tp_t1 p)) (stretch k (tp_t2 p))
         (tp_a1 p) (tp_a2 p * k) (tp_a3 p * (k * k)) (tp_b1 p) (tp_b2 p * k) (tp_b3 p * (k * k)) (tp_c1 p) (tp_c2 p * k) (tp_c3 p * (k * k))).

(** comparison with what may not be a number: false *)
Definition below (x : R) (y : option R) : bool := match y with Some y => Rltb x y | None => false end.
(** Pos(time), Vel(time) *)
Definition trap_pos (p : trap) (t : R) : R :=
  if Rltb t 0 then tp_start p
  else if below t (tp_t1 p) then tp_a1 p + t * (tp_a2 p + tp_a3 p * t)
  else if below t (tp_t2 p) then tp_b1 p + t * (tp_b2 p + tp_b3 p * t)
  else if Rleb t (tp_d p) then tp_c1 p + t * (tp_c2 p + tp_c3 p * t)
  else tp_end p.
Definition trap_vel (p : trap) (t : R) : R :=
  if Rltb t 0 then 0
  else if below t (tp_t1 p) then tp_a2 p + 2 * tp_a3 p * t
  else if below t (tp_t2 p) then tp_b2 p + 2 * tp_b3 p * t
  else if Rleb t (tp_d p) then tp_c2 p + 2 * tp_c3 p * t
  else 0.

(** ** KDL::VelocityProfile_Rectangular(maxvel), SetProfileDuration(pos1, pos2, duration) with pos1 < pos2 and a duration
    that is positive or, [None], infinite: then the velocity is zero and the end is never passed *)
Record rect := Rect { rc_p : R; rc_v : R; rc_d : option R }.
Definition rect_duration (maxvel pos1 pos2 : R) (duration : option R) : rect :=
  match duration with
  | None => Rect pos1 0 None
  | Some d => let v := (pos2 - pos1) / d in let v := if Rltb maxvel v then maxvel else v in Rect pos1 v (Some ((pos2 - pos1) / v))
  end.
Definition past (t : R) (d : option R) : bool := match d with Some d => Rltb d t | None => false end.
Definition rect_pos (p : rect) (t : R) : R :=
  if Rltb t 0 then rc_p p
  else if past t (rc_d p) then match rc_d p with Some d => rc_v p * d + rc_p p | None => rc_p p end
  else rc_p p + rc_v p * t.
Definition rect_vel (p : rect) (t : R) : R := if Rltb t 0 then 0 else if past t (rc_d p) then 0 else rc_v p.

(** ** The trajectories (KDL::Trajectory_Segment: Pos, Vel, Duration) *)

(** ICartesianControlImpl.cpp 216-223: a line in the given time, profile with limits 10 and 10, radius 1 *)
Definition line_profile (a b : frame) (seconds : R) : option trap := trap_duration 10 10 0 (pt_len (path_line a b 1)) seconds.
Definition line_pos (a b : frame) (seconds t : R) : option frame :=
  option_map (fun p => path_pos (path_line a b 1) (trap_pos p t)) (line_profile a b seconds).
Definition line_vel (a b : frame) (seconds t : R) : option twist :=
  option_map (fun p => path_vel (path_line a b 1) (trap_pos p t) (trap_vel p t)) (line_profile a b seconds).
Definition line_seconds (a b : frame) (seconds : R) : option R := option_map tp_d (line_profile a b seconds).

(** ICartesianControlImpl.cpp 274-281: along a twist, ten units of path in 10 / length seconds, limit 10 *)
Definition along_profile (a : frame) (tw : twist) : rect :=
  let len := pt_len (path_along a tw 1) in
  rect_duration 10 0 10 (if Reqb len 0 then None else Some (10 / len)).
Definition along_pos (a : frame) (tw : twist) (t : R) : frame := path_pos (path_along a tw 1) (rect_pos (along_profile a tw) t).
Definition along_vel (a : frame) (tw : twist) (t : R) : twist :=
  path_vel (path_along a tw 1) (rect_pos (along_profile a tw) t) (rect_vel (along_profile a tw) t).
