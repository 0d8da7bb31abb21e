(** Model of the solver of ASIBOT (YarpPlugins/AsibotSolver).

    [None] as the result of a function of the device is undefined behaviour (an access out of
    the bounds of a vector).  A number that may be NaN is an [option R], where [None] is NaN:
    any operation on it gives NaN, any comparison with it is false.
    Real numbers for doubles; log messages are dropped; the mutex is not represented (each
    function is one step). *)
From Coq Require Import Reals List Bool Arith.
From Verif Require Import Kdl KdlRot Trig KinRep.
Import ListNotations.
Open Scope R_scope.

(** ** YARP's mathematical library (trusted: its sources are not in /repo) *)
(** yarp::math::axis2dcm: axis (taken as given) and angle *)
Definition axis2dcm (a : vec) (t : R) : mat := if Reqb t 0 then mid else Rot2 a t.
(** yarp::math::dcm2axis: axis and angle; [svd] stands for the last column of the matrix V of
    the singular value decomposition of m - I *)
Definition dcm2axis (svd : mat -> vec) (m : mat) : vec * R :=
  let v := V (m21 m - m12 m) (m02 m - m20 m) (m10 m - m01 m) in
  let theta := atan2 (norm v / 2) ((m00 m + m11 m + m22 m - 1) / 2) in
  if Rltb (norm v) (/ 1000000000) then (vscale (/ norm (svd m)) (svd m), theta) else (vscale (/ norm v) v, theta).
(** yarp::math::luinv on a matrix whose last row is 0 0 0 1: adjugate over determinant *)
Definition minv (m : mat) : mat :=
  let d := / det m in
  M (d * (m11 m * m22 m - m12 m * m21 m)) (d * (m02 m * m21 m - m01 m * m22 m)) (d * (m01 m * m12 m - m02 m * m11 m))
    (d * (m12 m * m20 m - m10 m * m22 m)) (d * (m00 m * m22 m - m02 m * m20 m)) (d * (m02 m * m10 m - m00 m * m12 m))
    (d * (m10 m * m21 m - m11 m * m20 m)) (d * (m01 m * m20 m - m00 m * m21 m)) (d * (m00 m * m11 m - m01 m * m10 m)).
Definition luinv (h : frame) : frame := F (minv (fM h)) (vneg (mv (minv (fM h)) (fp h))).

(** ** Conversions (ICartesianSolverImpl.cpp) *)
Definition three (v : vec) : list R := [vx v; vy v; vz v].
(** 22-57: vectorToMatrix (the translation is always filled) *)
Definition vectorToMatrix (v : list R) : option frame :=
  match v with
  | x :: y :: z :: a :: b :: c :: _ =>
      let r := V a b c in
      let axis := if Rltb (/ 1000000000) (norm r) then vscale (/ norm r) r else vzero in
      Some (F (axis2dcm axis (norm r)) (V x y z))
  | _ => None
  end.
Section Svd.
Variable svd : mat -> vec.
(** 59-78: matrixToVector (the translation is always filled) *)
Definition matrixToVector (h : frame) : list R :=
  let '(a, t) := dcm2axis svd (fM h) in three (fp h) ++ three (vscale t a).

(** ** Joint configurations (AsibotConfiguration.cpp) *)
(** 17: eps *)
Definition deg_eps : R := / 1000.
(** 24-44: normalizeAngle *)
Definition normalizeAngle (q : R) : R :=
  if Rltb 180 q then q - 360
  else if Rleb q (-180) then q + 360
  else if Rltb (Rabs q) deg_eps then 0
  else q.
(** 19-22: checkJointInLimits *)
Definition checkJointInLimits (q : option R) (lo hi : R) : bool :=
  match q with Some q => Rleb (lo - deg_eps) q && Rleb q (hi + deg_eps) | None => false end.
Inductive orientation := FORWARD | REVERSED.
Inductive elbow := UP | DOWN.
(** AsibotConfiguration.hpp 84-117: Pose *)
Record pose := Pose { p_joints : list (option R); p_valid : bool; p_orient : orientation; p_elbow : elbow }.
(** 107-124: checkJointsInLimits *)
Fixpoint joints_in_limits (qs : list (option R)) (lo hi : list R) : option bool :=
  match qs, lo, hi with
  | [], _, _ => Some true
  | q :: qs', l :: lo', h :: hi' =>
      match joints_in_limits qs' lo' hi' with Some b => Some (checkJointInLimits q l h && b) | None => None end
  | _, _, _ => None
  end.
(** 95-105: storeAngles, and the check that follows each call in configure *)
Definition stored (lo hi : list R) (qs : list (option R)) (o : orientation) (e : elbow) : option pose :=
  let js := map (option_map normalizeAngle) qs in
  match joints_in_limits js lo hi with Some b => Some (Pose js b o e) | None => None end.

Definition omap2 (f : R -> R -> R) (a b : option R) : option R :=
  match a, b with Some x, Some y => Some (f x y) | _, _ => None end.
Definition oadd := omap2 Rplus.
Definition osub := omap2 Rminus.
Definition oopp := option_map Ropp.
Definition oplus (a : option R) (k : R) : option R := option_map (fun x => x + k) a.
(** 47-93: configure; the first result is the answer *)
Definition configure (lo hi : list R) (q1 q2u q2d q3 q4u q4d q5 : option R) : option (bool * list pose) :=
  let broken := match osub (oadd (oadd q2u q3) q4u) (oadd (osub q2d q3) q4d) with
                | Some d => Rltb deg_eps (Rabs d) | None => false end in
  if broken then Some (false, []) else
  match stored lo hi [q1; q2u; q3; q4u; q5] FORWARD UP,
        stored lo hi [q1; q2d; oopp q3; q4d; q5] FORWARD DOWN,
        stored lo hi [oplus q1 180; oopp q2u; oopp q3; oopp q4u; oplus q5 180] REVERSED UP,
        stored lo hi [oplus q1 180; oopp q2d; q3; oopp q4d; oplus q5 180] REVERSED DOWN with
  | Some a, Some b, Some c, Some d => Some (existsb p_valid [a; b; c; d], [a; b; c; d])
  | _, _, _, _ => None
  end.

(** ** Choice (AsibotConfigurationLeastOverallAngularDisplacement.cpp) *)
(** 85-94: getDiffs; [None]: the guess is too short, or NaN *)
Definition getDiffs (guess : list R) (p : pose) : option (list R) :=
  match guess, p_joints p with
  | g1 :: g2 :: g3 :: g4 :: g5 :: _, [Some q1; Some q2; Some q3; Some q4; Some q5] =>
      Some [Rabs (g1 - q1); Rabs (g2 - q2); Rabs (g3 - q3); Rabs (g4 - q4); Rabs (g5 - q5)]
  | _, _ => None
  end.
(** std::map<double, const Pose *>: increasing keys, the first insertion of a key stays *)
Fixpoint map_insert (k : R) (p : pose) (m : list (R * pose)) : list (R * pose) :=
  match m with
  | [] => [(k, p)]
  | (k', p') :: m' => if Rltb k k' then (k, p) :: m else if Rltb k' k then (k', p') :: map_insert k p m' else m
  end.
(** 22-48 *)
Fixpoint displacements (guess : list R) (ps : list pose) (m : list (R * pose)) : option (list (R * pose)) :=
  match ps with
  | [] => Some m
  | p :: ps' =>
      if p_valid p then
        match getDiffs guess p with
        | Some ds => displacements guess ps' (map_insert (fold_left Rplus ds 0) p m)
        | None => None
        end
      else displacements guess ps' m
  end.
Definition same_orient (a b : orientation) : bool := match a, b with FORWARD, FORWARD | REVERSED, REVERSED => true | _, _ => false end.
(** 16-83: findOptimalConfiguration; the inner [None] is the answer false *)
Definition findOptimal (guess : list R) (ps : list pose) : option (option pose) :=
  match displacements guess ps [] with
  | None => None
  | Some [] => Some None
  | Some [(_, a)] => Some (Some a)
  | Some ((_, a) :: (_, b) :: _) =>
      if same_orient (p_orient b) (p_orient a) then
        match getDiffs guess a, getDiffs guess b with
        | Some da, Some db =>
            let x := nth 1 da 0 in let y := nth 1 db 0 in
            Some (Some (if Rltb y x || (Reqb y x && match p_elbow b with UP => true | DOWN => false end) then b else a))
        | _, _ => None
        end
      else Some (Some a)
  end.

(** ** The device *)
(** AsibotSolver.hpp 80-106, DeviceDriverImpl.cpp 31-98: the members *)
Record asibot := As { A0 : R; A1 : R; A2 : R; A3 : R; qMin : list R; qMax : list R; hasFrame : bool; frameTcp : frame }.
(** DeviceDriverImpl.cpp 31-98: open, once the options are read ([None]: the answer is false) *)
Definition as_open (a0 a1 a2 a3 : R) (mins maxs : list R) : option asibot :=
  if negb (Nat.eqb (length mins) 5) || negb (Nat.eqb (length maxs) 5) then None
  else if existsb (fun '(lo, hi) => Rltb hi lo) (combine mins maxs) then None
  else Some (As a0 a1 a2 a3 mins maxs false fid).

(** 202-212: appendLink *)
Definition appendLink (s : asibot) (x : list R) : option asibot :=
  match vectorToMatrix x with
  | Some h => Some (As (A0 s) (A1 s) (A2 s) (A3 s) (qMin s) (qMax s) true (fmul (frameTcp s) h))
  | None => None
  end.
(** 216-223: restoreOriginalChain *)
Definition restoreOriginalChain (s : asibot) : asibot :=
  As (A0 s) (A1 s) (A2 s) (A3 s) (qMin s) (qMax s) false fid.
(** 227-236: changeOrigin *)
Definition changeOrigin (x_old_obj x_new_old : list R) : option (list R) :=
  match vectorToMatrix x_old_obj, vectorToMatrix x_new_old with
  | Some o, Some n => Some (matrixToVector (fmul n o))
  | _, _ => None
  end.

(** 240-284: fwdKin.  The vector x of the source is the memory cell 0 *)
Definition fwdKin (s : asibot) (q : list R) : option (list R) :=
  match q with
  | q1 :: q2 :: q3 :: q4 :: q5 :: _ =>
      let r1 := degToRad q1 in let r2 := degToRad q2 in let r3 := degToRad q3 in let r4 := degToRad q4 in
      let s1 := sin r1 in let c1 := cos r1 in let s2 := sin r2 in let c2 := cos r2 in
      let s23 := sin (r2 + r3) in let c23 := cos (r2 + r3) in
      let s234 := sin (r2 + r3 + r4) in let c234 := cos (r2 + r3 + r4) in
      let prP := A1 s * s2 + A2 s * s23 + A3 s * s234 in
      let phP := A1 s * c2 + A2 s * c23 + A3 s * c234 in
      let oyP := q2 + q3 + q4 in
      match encodePose 0 0 CARTESIAN EULER_YZ DEGREES (fun _ => [prP * c1; prP * s1; phP + A0 s; oyP; q5]) with
      | Some (_, m) =>
          if hasFrame s then
            match vectorToMatrix (m O) with Some h => Some (matrixToVector (fmul h (frameTcp s))) | None => None end
          else Some (m O)
      | None => None
      end
  | _ => None
  end.

(** 288-310: poseDiff *)
Definition poseDiff (xLhs xRhs : list R) : option (list R) :=
  match vectorToMatrix xLhs, vectorToMatrix xRhs with
  | Some l, Some r =>
      let '(a, t) := dcm2axis svd (mm (mT (fM r)) (fM l)) in
      Some (three (vsub (fp l) (fp r)) ++ three (mv (fM r) (vscale t a)))
  | _, _ => None
  end.

(** 349-394: the closed form, from the position and the two angles of the target; [None] is
    the answer "Target out of reach" *)
Definition osqrt (x : R) : option R := if Rltb x 0 then None else Some (sqrt x).
Record solution := Sol { s_oz : R; s_t1u : option R; s_t1d : option R; s_t2 : option R; s_t3u : option R; s_t3d : option R }.
Definition closed_form (s : asibot) (x y z oyPd : R) : option solution :=
  let ozd := atan2 y x in
  let prPd := sqrt (x * x + y * y) in
  let phPd := z - A0 s in
  if Rltb (A1 s + A2 s + A3 s) (sqrt (prPd * prPd + phPd * phPd)) then None else
  let prWd := prPd - A3 s * sin oyPd in
  let phWd := phPd - A3 s * cos oyPd in
  let len_2 := phWd * phWd + prWd * prWd in
  if Rltb (A1 s + A2 s) (sqrt len_2) then None else
  let ct2 := fdiv (len_2 - A1 s * A1 s - A2 s * A2 s) (2 * A1 s * A2 s) in
  let st2 := match ct2 with Some c => osqrt (1 - c * c) | None => None end in
  let t2 := omap2 atan2 st2 ct2 in
  let quot f := match st2, ct2 with Some st, Some ct => fdiv (f st ct) len_2 | _, _ => None end in
  let st1u := quot (fun st2 ct2 => (A1 s + A2 s * ct2) * prWd - A2 s * st2 * phWd) in
  let ct1u := quot (fun st2 ct2 => (A1 s + A2 s * ct2) * phWd + A2 s * st2 * prWd) in
  let st1d := quot (fun st2 ct2 => (A1 s + A2 s * ct2) * prWd + A2 s * st2 * phWd) in
  let ct1d := quot (fun st2 ct2 => (A1 s + A2 s * ct2) * phWd - A2 s * st2 * prWd) in
  let t1u := omap2 atan2 st1u ct1u in
  let t1d := omap2 atan2 st1d ct1d in
  let t3u := osub (osub (Some oyPd) t1u) t2 in
  let t3d := oadd (osub (Some oyPd) t1d) t2 in
  Some (Sol ozd t1u t1d t2 t3u t3d).

Inductive reference_frame := BASE_FRAME | TCP_FRAME | OTHER_FRAME.
(** 314-417: invKin; the inner [None] is the answer false *)
Definition invKin (s : asibot) (xd guess : list R) (fr : reference_frame) : option (option (list R)) :=
  let target :=
    match fr with
    | TCP_FRAME => match fwdKin s guess with Some x => option_map Some (changeOrigin xd x) | None => None end
    | BASE_FRAME => Some (Some xd)
    | OTHER_FRAME => Some None
    end in
  match target with
  | None => None
  | Some None => Some None
  | Some (Some xb) =>
      let xn := if hasFrame s then
                  match vectorToMatrix xb with Some h => Some (matrixToVector (fmul h (luinv (frameTcp s)))) | None => None end
                else Some xb in
      match xn with
      | None => None
      | Some xn =>
          match decodePose 0 1 CARTESIAN EULER_YZ RADIANS (fun r => if Nat.eqb r 0 then xn else []) with
          | None => None
          | Some (false, _) => Some None
          | Some (true, m) =>
              match m 1%nat with
              | x :: y :: z :: oy :: oz :: _ =>
                  match closed_form s x y z oy with
                  | None => Some None
                  | Some c =>
                      match configure (qMin s) (qMax s) (Some (radToDeg (s_oz c))) (option_map radToDeg (s_t1u c))
                              (option_map radToDeg (s_t1d c)) (option_map radToDeg (s_t2 c)) (option_map radToDeg (s_t3u c))
                              (option_map radToDeg (s_t3d c)) (Some (radToDeg oz)) with
                      | None => None
                      | Some (false, _) => Some None
                      | Some (true, ps) =>
                          match findOptimal guess ps with
                          | None => None
                          | Some None => Some None
                          | Some (Some p) =>
                              Some (Some (map (fun o => match o with Some v => v | None => 0 end) (p_joints p)))
                          end
                      end
                  end
              | _ => None
              end
          end
      end
  end.
End Svd.

(** ** Differential kinematics.  The 6x5 matrices are lists of five columns *)
(** 80-128: computeBaseFrameDiffInvKin (angles in radians) *)
Definition base_jacobian (a1 a2 a3 q1 q2 q3 q4 : R) : list twist :=
  let s1 := sin q1 in let c1 := cos q1 in let s2 := sin q2 in let c2 := cos q2 in
  let s23 := sin (q2 + q3) in let c23 := cos (q2 + q3) in
  let s234 := sin (q2 + q3 + q4) in let c234 := cos (q2 + q3 + q4) in
  [ Tw (V (- s1 * (a3 * s234 + a2 * s23 + a1 * s2)) (c1 * (a3 * s234 + a2 * s23 + a1 * s2)) 0) (V 0 0 1);
    Tw (V (c1 * (a3 * c234 + a2 * c23 + a1 * c2)) (s1 * (a3 * c234 + a2 * c23 + a1 * c2)) (- a3 * s234 - a2 * s23 - a1 * s2)) (V (- s1) c1 0);
    Tw (V (c1 * (a3 * c234 + a2 * c23)) (s1 * (a3 * c234 + a2 * c23)) (- a3 * s234 - a2 * s23)) (V (- s1) c1 0);
    Tw (V (c1 * a3 * c234) (s1 * a3 * c234) (- a3 * s234)) (V (- s1) c1 0);
    Tw (V 0 0 0) (V (c1 * s234) (s1 * s234) c234) ].
(** 130-183: computeTcpFrameDiffInvKin (angles in radians) *)
Definition tcp_jacobian (a1 a2 a3 q2 q3 q4 q5 : R) : list twist :=
  let s2 := sin q2 in let s4 := sin q4 in let c4 := cos q4 in let s5 := sin q5 in let c5 := cos q5 in
  let s23 := sin (q2 + q3) in let s34 := sin (q3 + q4) in let c34 := cos (q3 + q4) in
  let s234 := sin (q2 + q3 + q4) in let c234 := cos (q2 + q3 + q4) in
  [ Tw (V (s5 * (a3 * s234 + a2 * s23 + a1 * s2)) (c5 * (a3 * s234 + a2 * s23 + a1 * s2)) 0) (V (- s234 * c5) (s234 * s5) c234);
    Tw (V (c5 * (a3 + a2 * c4 + a1 * c34)) (- s5 * (a3 + a2 * c4 + a1 * c34)) (a2 * s4 + a1 * s34)) (V s5 c5 0);
    Tw (V (c5 * (a3 + a2 * c4)) (- s5 * (a3 + a2 * c4)) (a2 * s4)) (V s5 c5 0);
    Tw (V (c5 * a3) (- s5 * a3) 0) (V s5 c5 0);
    Tw (V 0 0 0) (V 0 0 1) ].
(** yarp::math::crossProductMatrix (trusted) *)
Definition skew (v : vec) : mat := M 0 (- vz v) (vy v) (vz v) 0 (- vx v) (- vy v) (vx v) 0.
(** 445-464: the matrix whose pseudoinverse is used; [None]: undefined behaviour *)
Definition jacobian (svd : mat -> vec) (s : asibot) (q : list R) (fr : reference_frame) : option (option (list twist)) :=
  let ja :=
    match fr with
    | BASE_FRAME =>
        match q with
        | q1 :: q2 :: q3 :: q4 :: _ => Some (Some (base_jacobian (A1 s) (A2 s) (A3 s) (degToRad q1) (degToRad q2) (degToRad q3) (degToRad q4)))
        | _ => None
        end
    | TCP_FRAME =>
        match q with
        | q1 :: q2 :: q3 :: q4 :: q5 :: _ => Some (Some (tcp_jacobian (A1 s) (A2 s) (A3 s) (degToRad q2) (degToRad q3) (degToRad q4) (degToRad q5)))
        | _ => None
        end
    | OTHER_FRAME => Some None
    end in
  match ja with
  | Some (Some ja) =>
      if hasFrame s then
        match fwdKin svd s q with
        | None => None
        | Some x =>
            match vectorToMatrix x with
            | None => None
            | Some h =>
                let r := fM h in
                let w := mm r (mm (skew (fp (frameTcp s))) (mT r)) in
                Some (Some (map (fun c => Tw (vadd (t_vel c) (vneg (mv w (t_rot c)))) (t_rot c)) ja))
            end
        end
      else Some (Some ja)
  | other => other
  end.
(** 421-483: diffInvKin; [pinv] stands for the product of the pseudoinverse (tolerance 1e-2)
    with a vector of six numbers (trusted); a shorter xdot is padded with zeroes, a longer one
    overruns the vector *)
Definition diffInvKin (svd : mat -> vec) (pinv : list twist -> twist -> list R) (s : asibot) (q xdot : list R) (fr : reference_frame) : option (option (list R)) :=
  match jacobian svd s q fr with
  | None => None
  | Some None => Some None
  | Some (Some ja) =>
      if Nat.ltb 6 (length xdot) then None else
      Some (Some (map radToDeg (pinv ja (vectorToTwist (resized xdot 6)))))
  end.
(** 487-500: invDyn is not implemented: the answer is false *)
Definition invDyn (s : asibot) : bool := false.
