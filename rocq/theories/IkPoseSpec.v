(** Specification vocabulary for the poses of the candidates of the closed-form inverse
    kinematics.  Nothing here models code. *)
From Coq Require Import Reals List.
From Verif Require Import Kdl Screw Subproblems SubproblemSpec2 IkProblem IkSpec Builder BuilderSpec.
Import ListNotations.
Open Scope R_scope.
Local Notation S := Datatypes.S.

(** the term [j] never moves the point *)
Definition fixes (es : list mexp) (j : nat) (x : vec) : Prop :=
  exists e, nth_error es j = Some e /\ forall t, move1 e t x = x.
(** the terms that follow [j] are known up to some term, and the ones after it never move the point; the
    last term is not known (the library would move it to the other side) *)
Definition clear_right (es : list mexp) (K : list nat) (j : nat) (x : vec) : Prop :=
  ~ In (length es - 1)%nat K /\
  exists c, (j < c <= length es)%nat /\ (forall i, (j < i < c)%nat -> In i K) /\
    forall i, (c <= i < length es)%nat -> ~ In i K /\ fixes es i x.
(** the step, taken when the terms [K] are known, aims at the point [x] with rotations whose
    axes, if there are two, cross at a point *)
Definition aims (es : list mexp) (K : list nat) (s : sub) (x : vec) : Prop :=
  match s with
  | SPK1 id e p =>
      x = p /\ nth_error es id = Some e /\ e_motion e = ROTATION /\
      ~ In id K /\ (forall j, (j < id)%nat -> In j K) /\ clear_right es K id x
  | SPK2 id1 id2 e1 e2 p r =>
      x = p /\ id2 = S id1 /\ nth_error es id1 = Some e1 /\ nth_error es id2 = Some e2 /\
      e_motion e1 = ROTATION /\ e_motion e2 = ROTATION /\
      (exists t1 t2, r = point_on e1 t1 /\ r = point_on e2 t2) /\ cross (e_axis e1) (e_axis e2) <> vzero /\
      ~ In id1 K /\ ~ In id2 K /\ (forall j, (j < id1)%nat -> In j K) /\ clear_right es K id2 x
  | _ => False
  end.
(** how far from its goal such a step may leave a point that is [d] away from the origin of the axis,
    respectively from the crossing of the axes *)
Definition allowance (s : sub) (d : R) : R :=
  match s with
  | SPK1 _ _ _ => 3 * kdl_eps + kdl_eps * d
  | _ => sqrt kdl_eps + kdl_eps * (2 + 2 * d)
  end.
(** distance from that point, moved by the terms after the step, to that centre *)
Definition arm_length (p : poe) (reversed : bool) (q : list R) (s : sub) (x : vec) : R :=
  let after j := fapp (product p reversed q (S j) (length (exps p) - S j)) x in
  match s with
  | SPK1 id e _ => dist (after id) (e_origin e)
  | SPK2 _ id2 _ _ _ r => dist (after id2) r
  | _ => 0
  end.
(** where a frame carries a point given in the frame of reference of the formula at rest *)
Definition carried (p : poe) (f : frame) (x : vec) : vec := fapp f (fapp (finv (tool p)) x).
(** point with the given coordinates in the (not orthonormal) basis of two vectors and their product *)
Definition combination (o u v : vec) (a b c : R) : vec :=
  vadd o (vadd (vscale a u) (vadd (vscale b v) (vscale c (cross u v)))).

(** ** Arms with a spherical wrist *)
Definition on_axis (e : mexp) (x : vec) : Prop := exists t, x = point_on e t.
(** six rotations: the first two axes cross at [r], the last three at [w]; [x] is on the last axis, [y] off it *)
Definition wrist_arm (es : list mexp) (r w x y : vec) : Prop :=
  match es with
  | [e0; e1; e2; e3; e4; e5] =>
      no_translation es /\ on_axis e0 r /\ on_axis e1 r /\
      on_axis e3 w /\ on_axis e4 w /\ on_axis e5 w /\ on_axis e5 x /\
      cross (e_axis e0) (e_axis e1) <> vzero /\ cross (e_axis e3) (e_axis e4) <> vzero /\
      ~ on_axis e2 w /\ ~ on_axis e2 r /\ ~ on_axis e4 x /\ ~ on_axis e5 y
  | _ => False
  end.
(** the elbow brings the centre of the wrist to its distance from the shoulder, the shoulder brings it to its
    place, two rotations of the wrist place [x] and the last one [y] *)
Definition wrist_steps (es : list mexp) (r w x y : vec) : list sub :=
  match es with
  | [e0; e1; e2; e3; e4; e5] => [SPK3 2 e2 w r; SPK2 0 1 e0 e1 w r; SPK2 3 4 e3 e4 x w; SPK1 5 e5 y]
  | _ => []
  end.
(** how much room the two solutions of a pair of rotations leave around the plane of their axes; either none or
    more than the library's tolerance *)
Definition two_sided (e1 e2 : mexp) (r c : vec) : Prop :=
  let g := dot (vsub c r) (cross (e_axis e1) (e_axis e2)) / (1 - dot (e_axis e1) (e_axis e2) * dot (e_axis e1) (e_axis e2)) in
  g = 0 \/ kdl_eps <= g * g.
Definition cos_between (u v : vec) : R := dot u v / (norm u * norm v).
(** joint values at which every angle is told apart from half a turn, the elbow is neither stretched nor folded, the centre
    of the wrist is on neither axis of the shoulder and [x] is not on the first axis of the wrist *)
Definition regular (es : list mexp) (r w x : vec) (th : list R) : Prop :=
  match es, th with
  | [e0; e1; e2; e3; e4; e5], [t0; t1; t2; t3; t4; t5] =>
      (forall t, In t th -> settled t) /\
      let c := move1 e2 t2 w in
      let c' := move1 e1 t1 c in
      let x' := move1 e4 t4 x in
      Rabs (cos_between (perp (e_axis e2) (vsub c (e_origin e2))) (perp (e_axis e2) (vsub r (e_origin e2)))) <= 1 - kdl_eps /\
      ~ on_axis e1 c /\ ~ on_axis e0 c' /\ two_sided e0 e1 r c' /\
      ~ on_axis e3 x' /\ two_sided e3 e4 w x'
  | _, _ => False
  end.
(** how far from its place a candidate may leave the point with those coordinates *)
Definition wrist_bound (es : list mexp) (r w x y : vec) (a b c : R) : R :=
  match es with
  | [e0; e1; e2; e3; e4; e5] =>
      let d0 := sqrt kdl_eps + kdl_eps * (2 + 2 * (dist w (e_origin e2) + dist r (e_origin e2))) in
      let d1 := sqrt kdl_eps + kdl_eps * (2 + 2 * dist x w) in
      let d2 := 3 * kdl_eps + kdl_eps * dist y (e_origin e5) in
      d0 + Rabs a * (d0 + d1) + Rabs b * (d0 + d2) + Rabs c * ((d0 + d1) * dist y w + (d0 + d2) * dist x w)
  | _ => 0
  end.
