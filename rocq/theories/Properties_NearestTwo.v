(** What the subproblems of two joints answer for a target out of reach (C168). *)
From Coq Require Import Reals List.
From Verif Require Import Kdl Screw Trig Subproblems NearestTwoFacts.
Import ListNotations.
Open Scope R_scope.

(** C168: two parallel axes and a target in the plane of motion too near to the first axis: PG4 reports
    it unreachable, and its answer with the second angle taken with the opposite sign comes as near to
    the target as any posture (up to the snapping of an angle to PI) *)
Theorem C168_pg4_mirror : forall id1 id2 a1 o1 a2 o2 p s rhs pt,
  unit a1 -> s * s = 1 -> a2 = vscale s a1 ->
  let f := fapp pt p in let k := fapp rhs p in
  let e1 := E ROTATION a1 o1 in let e2 := E ROTATION a2 o2 in
  dot a1 (vsub k f) = 0 ->
  norm (perp a1 (vsub f o2)) + norm (perp a1 (vsub k o1)) + kdl_eps <= norm (perp a1 (vsub o2 o1)) ->
  exists th1 th2,
    pg4_solve id1 id2 e1 e2 p rhs pt = Some (false, [[(id1, th1); (id2, th2)]; [(id1, th1); (id2, th2)]]) /\
    forall t1 t2, dist (move2 e1 e2 th1 (- th2) f) k <= dist (move2 e1 e2 t1 t2 f) k + kdl_eps * (dist o2 o1 + 2 * dist f o2).
Proof. exact near_mirror. Qed.
Print Assumptions C168_pg4_mirror.
Example C168_pg4_mirror_example :
  let a1 := V 0 0 1 in let o1 := vzero in let o2 := V 4 0 0 in let f := fapp fid (V 4 1 0) in let k := fapp (ftrans (V (-4) 0 0)) (V 4 1 0) in
  unit a1 /\ (-1) * (-1) = 1 /\ dot a1 (vsub k f) = 0 /\
  norm (perp a1 (vsub f o2)) + norm (perp a1 (vsub k o1)) + kdl_eps <= norm (perp a1 (vsub o2 o1)).
Proof. exact ex_near. Qed.

(** C168: so the answer itself is the nearest posture if the point starts in line with both axes. What
    is missing: a point that does not, a target too far (both refuted below), and axes that meet. *)
Theorem C168_pg4_aligned_partial : forall id1 id2 a1 o1 a2 o2 p s rhs pt,
  unit a1 -> s * s = 1 -> a2 = vscale s a1 ->
  let f := fapp pt p in let k := fapp rhs p in
  let e1 := E ROTATION a1 o1 in let e2 := E ROTATION a2 o2 in
  dot a1 (vsub k f) = 0 ->
  norm (perp a1 (vsub f o2)) + norm (perp a1 (vsub k o1)) + kdl_eps <= norm (perp a1 (vsub o2 o1)) ->
  dot a1 (cross (vsub f o2) (vsub o2 o1)) = 0 ->
  exists th1 th2,
    pg4_solve id1 id2 e1 e2 p rhs pt = Some (false, [[(id1, th1); (id2, th2)]; [(id1, th1); (id2, th2)]]) /\
    forall t1 t2, dist (move2 e1 e2 th1 th2 f) k <= dist (move2 e1 e2 t1 t2 f) k + kdl_eps * (dist o2 o1 + 2 * dist f o2).
Proof. exact near_aligned. Qed.
Print Assumptions C168_pg4_aligned_partial.
Example C168_pg4_aligned_example :
  let a1 := V 0 0 1 in let o1 := vzero in let o2 := V 4 0 0 in let f := fapp fid (V 5 0 0) in let k := fapp (ftrans (V (-5) 1 0)) (V 5 0 0) in
  unit a1 /\ dot a1 (vsub k f) = 0 /\ dot a1 (cross (vsub f o2) (vsub o2 o1)) = 0 /\
  norm (perp a1 (vsub f o2)) + norm (perp a1 (vsub k o1)) + kdl_eps <= norm (perp a1 (vsub o2 o1)).
Proof. exact ex_aligned. Qed.

(** C168 is false in general: every answer is a unit of length or more farther than another posture,
    with PK2 for a target too far, with PG4 for a target too near, and with PG4 for a target too far *)
Theorem C168_nearest_refuted :
  (exists id1 id2 e1 e2 p r rhs pt flag th1 th2 t1 t2,
    unit (e_axis e1) /\ unit (e_axis e2) /\ dot (e_axis e1) (e_axis e2) = 0 /\ e_origin e1 = r /\ e_origin e2 = r /\
    e_motion e1 = ROTATION /\ e_motion e2 = ROTATION /\ rigid rhs /\ rigid pt /\
    pk2_solve id1 id2 e1 e2 p r rhs pt = Some (flag, [[(id1, th1); (id2, th2)]; [(id1, th1); (id2, th2)]]) /\
    dist (move2 e1 e2 t1 t2 (fapp pt p)) (fapp rhs p) + 1 <= dist (move2 e1 e2 th1 th2 (fapp pt p)) (fapp rhs p)) /\
  (exists id1 id2 e1 e2 p rhs pt flag th1 th2 t1 t2,
    unit (e_axis e1) /\ e_axis e2 = e_axis e1 /\ e_motion e1 = ROTATION /\ e_motion e2 = ROTATION /\ rigid rhs /\ rigid pt /\
    pg4_solve id1 id2 e1 e2 p rhs pt = Some (flag, [[(id1, th1); (id2, th2)]; [(id1, th1); (id2, th2)]]) /\
    dot (e_axis e1) (vsub (fapp rhs p) (fapp pt p)) = 0 /\
    dist (move2 e1 e2 t1 t2 (fapp pt p)) (fapp rhs p) + 1 <= dist (move2 e1 e2 th1 th2 (fapp pt p)) (fapp rhs p)) /\
  (exists id1 id2 e1 e2 p rhs pt flag th11 th21 th12 th22 t1 t2,
    unit (e_axis e1) /\ e_axis e2 = e_axis e1 /\ e_motion e1 = ROTATION /\ e_motion e2 = ROTATION /\ rigid rhs /\ rigid pt /\
    pg4_solve id1 id2 e1 e2 p rhs pt = Some (flag, [[(id1, th11); (id2, th21)]; [(id1, th12); (id2, th22)]]) /\
    dot (e_axis e1) (vsub (fapp rhs p) (fapp pt p)) = 0 /\
    dist (move2 e1 e2 t1 t2 (fapp pt p)) (fapp rhs p) + 1 <= dist (move2 e1 e2 th11 th21 (fapp pt p)) (fapp rhs p) /\
    dist (move2 e1 e2 t1 t2 (fapp pt p)) (fapp rhs p) + 1 <= dist (move2 e1 e2 th12 th22 (fapp pt p)) (fapp rhs p)).
Proof. exact two_nearest_ex. Qed.
Print Assumptions C168_nearest_refuted.
