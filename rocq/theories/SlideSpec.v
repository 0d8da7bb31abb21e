(** Specification vocabulary for the poses reached by arms with a sliding joint.  Nothing here models code. *)
From Coq Require Import Reals List.
From Verif Require Import Kdl Screw Subproblems SubproblemSpec2 IkProblem IkSpec Builder BuilderSpec IkPoseSpec.
Import ListNotations.
Open Scope R_scope.
Local Notation S := Datatypes.S.

(** three rotations whose axes meet at [w]; [x] is on the last axis, [y] off it *)
Definition wrist_part (e3 e4 e5 : mexp) (w x y : vec) : Prop :=
  e_motion e3 = ROTATION /\ e_motion e4 = ROTATION /\ e_motion e5 = ROTATION /\
  on_axis e3 w /\ on_axis e4 w /\ on_axis e5 w /\ on_axis e5 x /\
  cross (e_axis e3) (e_axis e4) <> vzero /\ ~ on_axis e4 x /\ ~ on_axis e5 y.
Definition parallel (e e' : mexp) : Prop := e_axis e' = e_axis e \/ e_axis e' = vneg (e_axis e).
(** distance from a point to an axis *)
Definition away (e : mexp) (x : vec) : R := norm (perp (e_axis e) (vsub x (e_origin e))).

(** two rotations that cross at [r], a sliding joint and a wrist, as in the Stanford arm *)
Definition sliding_arm (es : list mexp) (r w x y : vec) : Prop :=
  match es with
  | [e0; e1; e2; e3; e4; e5] =>
      e_motion e0 = ROTATION /\ e_motion e1 = ROTATION /\ e_motion e2 = TRANSLATION /\
      on_axis e0 r /\ on_axis e1 r /\ cross (e_axis e0) (e_axis e1) <> vzero /\ wrist_part e3 e4 e5 w x y
  | _ => False
  end.
Definition sliding_steps (es : list mexp) (r w x y : vec) : list sub :=
  match es with
  | [e0; e1; e2; e3; e4; e5] => [SPG3 2 e2 w r; SPK2 0 1 e0 e1 w r; SPK2 3 4 e3 e4 x w; SPK1 5 e5 y]
  | _ => []
  end.
(** a sliding joint along two parallel axes, and a wrist *)
Definition linear_arm (es : list mexp) (w x y : vec) : Prop :=
  match es with
  | [e0; e1; e2; e3; e4; e5] =>
      e_motion e0 = TRANSLATION /\ e_motion e1 = ROTATION /\ e_motion e2 = ROTATION /\
      parallel e1 e0 /\ parallel e1 e2 /\ kdl_eps <= away e1 (e_origin e2) /\ wrist_part e3 e4 e5 w x y
  | _ => False
  end.
Definition linear_steps (es : list mexp) (w x y : vec) : list sub :=
  match es with
  | [e0; e1; e2; e3; e4; e5] => [SPG1 0 e0 w; SPG4 1 2 e1 e2 w; SPK2 3 4 e3 e4 x w; SPK1 5 e5 y]
  | _ => []
  end.
(** two parallel rotations, a sliding joint and a third rotation, all of them parallel *)
Definition scara_arm (es : list mexp) (w y : vec) : Prop :=
  match es with
  | [e0; e1; e2; e3] =>
      e_motion e0 = ROTATION /\ e_motion e1 = ROTATION /\ e_motion e2 = TRANSLATION /\ e_motion e3 = ROTATION /\
      parallel e0 e1 /\ parallel e0 e2 /\ parallel e0 e3 /\ kdl_eps <= away e0 (e_origin e1) /\
      on_axis e3 w /\ ~ on_axis e3 y
  | _ => False
  end.
Definition scara_steps (es : list mexp) (w y : vec) : list sub :=
  match es with
  | [e0; e1; e2; e3] => [SPG1 2 e2 w; SPG4 0 1 e0 e1 w; SPK1 3 e3 y]
  | _ => []
  end.

(** the place [k] is not the nearest one to the first axis that a pair of parallel rotations can bring [x] to *)
Definition unfolded (e e' : mexp) (x k : vec) : Prop :=
  kdl_eps <= away e' x + away e k - away e (e_origin e').
(** the same for the pair of an arm of either kind *)
Definition pair_unfolded (es : list mexp) (x k : vec) : Prop :=
  match es with
  | [_; e1; e2; _; _; _] => unfolded e1 e2 x k
  | [e0; e1; _; _] => unfolded e0 e1 x k
  | _ => False
  end.
(** how far from its place such a pair may leave a point *)
Definition pair_bound (nu nv : R) : R := sqrt (kdl_eps * (2 * nv + 1)) + kdl_eps * (2 + nu + nv).
(** two ways to move a body agree on three of its points up to those distances, and on each other point
    up to the distance that follows *)
Definition placed (f g : vec -> vec) (o x y : vec) (d0 d1 d2 : R) : Prop :=
  forall a b c,
    let z := combination o (vsub x o) (vsub y o) a b c in
    dist (f z) (g z) <= d0 + Rabs a * (d0 + d1) + Rabs b * (d0 + d2) + Rabs c * ((d0 + d1) * dist y o + (d0 + d2) * dist x o).
(** the distances for the three kinds of arms; [s] is the value of the sliding joint, [k] the place where the target wants [w] *)
Definition wrist_x (w x : vec) : R := sqrt kdl_eps + kdl_eps * (2 + 2 * dist x w).
Definition wrist_y (e : mexp) (y : vec) : R := 3 * kdl_eps + kdl_eps * dist y (e_origin e).
Definition sliding_placed (es : list mexp) (r w x y : vec) (s : R) (f g : vec -> vec) : Prop :=
  match es with
  | [e0; e1; e2; e3; e4; e5] =>
      placed f g w x y (sqrt kdl_eps + kdl_eps * (2 + 2 * (dist w r + Rabs s))) (wrist_x w x) (wrist_y e5 y)
  | _ => False
  end.
Definition linear_placed (es : list mexp) (w x y k : vec) (f g : vec -> vec) : Prop :=
  match es with
  | [e0; e1; e2; e3; e4; e5] => placed f g w x y (pair_bound (away e2 w) (away e1 k)) (wrist_x w x) (wrist_y e5 y)
  | _ => False
  end.
Definition scara_placed (es : list mexp) (w y k : vec) (f g : vec -> vec) : Prop :=
  match es with
  | [e0; e1; e2; e3] =>
      let d0 := pair_bound (away e1 w) (away e0 k) in placed f g w (vadd w (e_axis e0)) y d0 d0 (wrist_y e3 y)
  | _ => False
  end.
(** a target that leaves the common direction of the axes as it is at rest *)
Definition upright (es : list mexp) (g : frame) : Prop :=
  match es with e0 :: _ => mv (fM g) (e_axis e0) = e_axis e0 | [] => False end.

(** joint values from which the library can tell the others: rotations told apart from half a turn and no point on the
    axis of the rotation that is to move it *)
Definition wrist_regular (e3 e4 e5 : mexp) (w x : vec) (t3 t4 t5 : R) : Prop :=
  settled t3 /\ settled t4 /\ settled t5 /\
  let x' := move1 e4 t4 x in ~ on_axis e3 x' /\ two_sided e3 e4 w x'.
Definition sliding_regular (es : list mexp) (r w x : vec) (th : list R) : Prop :=
  match es, th with
  | [e0; e1; e2; e3; e4; e5], [t0; t1; t2; t3; t4; t5] =>
      settled t0 /\ settled t1 /\
      (let u := t2 - dot (e_axis e2) (vsub r w) in kdl_eps <= u * u) /\
      (let c := move1 e2 t2 w in let c' := move1 e1 t1 c in ~ on_axis e1 c /\ ~ on_axis e0 c' /\ two_sided e0 e1 r c') /\
      wrist_regular e3 e4 e5 w x t3 t4 t5
  | _, _ => False
  end.
Definition pair_regular (e e' : mexp) (x : vec) (t t' : R) : Prop :=
  settled t /\ settled t' /\ ~ on_axis e' x /\ ~ on_axis e (move1 e' t' x) /\ unfolded e e' x (move1 e t (move1 e' t' x)).
Definition linear_regular (es : list mexp) (w x : vec) (th : list R) : Prop :=
  match es, th with
  | [e0; e1; e2; e3; e4; e5], [t0; t1; t2; t3; t4; t5] => pair_regular e1 e2 w t1 t2 /\ wrist_regular e3 e4 e5 w x t3 t4 t5
  | _, _ => False
  end.
Definition scara_regular (es : list mexp) (w : vec) (th : list R) : Prop :=
  match es, th with
  | [e0; e1; e2; e3], [t0; t1; t2; t3] => pair_regular e0 e1 w t0 t1 /\ settled t3
  | _, _ => False
  end.
