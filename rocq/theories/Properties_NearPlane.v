(** Two translations and a target that is a little off their plane (C164). *)
From Coq Require Import Reals List.
From Verif Require Import Kdl KdlFacts Screw Subproblems NearPlaneFacts.
Import ListNotations.
Open Scope R_scope.

(** C164: the target is off the plane of the axes by [w]. On the one side (the first axis has to move
    forward, or not at all) the answer brings the point to within 1.5 times that of it. *)
Theorem C164_forward_partial : forall id1 id2 a1 a2 o1 o2 p rhs pt t1 t2 w,
  unit a1 -> unit a2 -> cross a2 a1 <> vzero -> dot a1 w = 0 -> dot a2 w = 0 ->
  let e1 := E TRANSLATION a1 o1 in let e2 := E TRANSLATION a2 o2 in
  fapp rhs p = vadd (move2 e1 e2 t1 t2 (fapp pt p)) w -> 0 <= t1 ->
  exists th1 th2, pg2_solve id1 id2 e1 e2 p rhs pt = Some (true, [[(id1, th1); (id2, th2)]]) /\
    dist (move2 e1 e2 th1 th2 (fapp pt p)) (fapp rhs p) <= 3 / 2 * norm w.
Proof. exact off_good. Qed.
Print Assumptions C164_forward_partial.
Example C164_forward_example : unit (V 1 0 0) /\ unit (V 0 1 0) /\ cross (V 0 1 0) (V 1 0 0) <> vzero /\
  dot (V 1 0 0) (V 0 0 1) = 0 /\ dot (V 0 1 0) (V 0 0 1) = 0 /\ V 0 0 1 <> vzero /\
  fapp (ftrans (V 3 4 1)) (V 1 1 1)
  = vadd (move2 (E TRANSLATION (V 1 0 0) vzero) (E TRANSLATION (V 0 1 0) vzero) 3 4 (fapp fid (V 1 1 1))) (V 0 0 1).
Proof. exact ex_near. Qed.

(** C164: on the other side it fails whenever the target is off the plane at all, by twice the distance
    from the point to the line of the second axis through the target (C12: at no distance it is exact). *)
Theorem C164_backward : forall id1 id2 a1 a2 o1 o2 p rhs pt t1 t2 w,
  unit a1 -> unit a2 -> cross a2 a1 <> vzero -> dot a1 w = 0 -> dot a2 w = 0 ->
  let e1 := E TRANSLATION a1 o1 in let e2 := E TRANSLATION a2 o2 in
  fapp rhs p = vadd (move2 e1 e2 t1 t2 (fapp pt p)) w -> t1 < 0 -> w <> vzero ->
  exists th1 th2, pg2_solve id1 id2 e1 e2 p rhs pt = Some (true, [[(id1, th1); (id2, th2)]]) /\
    2 * - t1 * norm (cross a2 a1) <= dist (move2 e1 e2 th1 th2 (fapp pt p)) (fapp rhs p).
Proof. exact off_bad. Qed.
Print Assumptions C164_backward.
(** the other hypotheses are those of C164_forward_example *)
Example C164_backward_example :
  fapp (ftrans (V (-3) 4 1)) (V 1 1 1)
  = vadd (move2 (E TRANSLATION (V 1 0 0) vzero) (E TRANSLATION (V 0 1 0) vzero) (-3) 4 (fapp fid (V 1 1 1))) (V 0 0 1).
Proof. exact ex_near2. Qed.

(** C164: however near the target is to one that can be reached exactly, the answer can be a unit of
    length away from it. *)
Theorem C164_near_refuted : forall eps, 0 < eps -> exists id1 id2 e1 e2 p rhs pt t1 t2 th1 th2,
  unit (e_axis e1) /\ unit (e_axis e2) /\ e_motion e1 = TRANSLATION /\ e_motion e2 = TRANSLATION /\
  dot (e_axis e1) (e_axis e2) = 0 /\ rigid rhs /\ rigid pt /\
  dist (move2 e1 e2 t1 t2 (fapp pt p)) (fapp rhs p) <= eps /\
  pg2_solve id1 id2 e1 e2 p rhs pt = Some (true, [[(id1, th1); (id2, th2)]]) /\
  1 <= dist (move2 e1 e2 th1 th2 (fapp pt p)) (fapp rhs p).
Proof. exact near_bad. Qed.
Print Assumptions C164_near_refuted.
