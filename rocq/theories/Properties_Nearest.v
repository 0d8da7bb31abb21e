(** What the subproblems of one joint answer for a target out of reach (C166). *)
From Coq Require Import Reals List.
From Verif Require Import Kdl KdlFacts Screw Subproblems NearestFacts.
Import ListNotations.
Open Scope R_scope.

(** C166: the rotation that PK1 answers brings the point as near to the target as any rotation does
    (up to the snapping of an angle to PI), wherever the target is *)
Theorem C166_pk1 : forall id a o p rhs pt, unit a ->
  let e := E ROTATION a o in let f := fapp pt p in let k := fapp rhs p in
  exists flag th, pk1_solve id e p rhs pt = Some (flag, [[(id, th)]]) /\
    forall t, (th <> PI -> dist (move1 e th f) k <= dist (move1 e t f) k) /\
      dist (move1 e th f) k <= dist (move1 e t f) k + kdl_eps * dist f o.
Proof. exact pk1_nearest. Qed.
Print Assumptions C166_pk1.
(** C166: so does the translation of PG1 *)
Theorem C166_pg1 : forall id a o p rhs pt, unit a ->
  let e := E TRANSLATION a o in let f := fapp pt p in let k := fapp rhs p in
  exists th, pg1_solve id e p rhs pt = Some (true, [[(id, th)]]) /\
    forall t, dist (move1 e th f) k <= dist (move1 e t f) k.
Proof. exact pg1_nearest. Qed.
Print Assumptions C166_pg1.
Example C166_axis_example : unit (V 0 0 1).
Proof. exact unit_ez. Qed.

(** C166: PK3 is to bring the point to a distance from k. If every rotation leaves it farther than that,
    the answer comes nearest *)
Theorem C166_pk3_inner_partial : forall id a o p k rhs pt, unit a ->
  let f := fapp pt p in let e := E ROTATION a o in let delta := dist (fapp rhs p) k in
  norm (perp a (vsub f o)) <> 0 -> norm (perp a (vsub k o)) <> 0 ->
  (forall t, delta <= dist (move1 e t f) k) ->
  exists flag th, pk3_solve id e p k rhs pt = Some (flag, [[(id, th)]; [(id, th)]]) /\
    forall t, dist (move1 e th f) k <= dist (move1 e t f) k + kdl_eps * dist f o.
Proof. exact pk3_inner. Qed.
Print Assumptions C166_pk3_inner_partial.
Example C166_pk3_inner_example : unit (V 0 0 1) /\ norm (perp (V 0 0 1) (vsub (fapp fid (V 1 0 0)) vzero)) <> 0 /\ norm (perp (V 0 0 1) (vsub (V 3 0 0) vzero)) <> 0 /\
  forall t, dist (fapp (ftrans (V 3 0 0)) (V 1 0 0)) (V 3 0 0) <= dist (move1 (E ROTATION (V 0 0 1) vzero) t (fapp fid (V 1 0 0))) (V 3 0 0).
Proof. exact ex_inner. Qed.
(** C166: if every rotation leaves it nearer than that, no rotation does worse than the answer *)
Theorem C166_pk3_outer : forall id a o p k rhs pt, unit a ->
  let f := fapp pt p in let e := E ROTATION a o in let delta := dist (fapp rhs p) k in
  norm (perp a (vsub f o)) <> 0 -> norm (perp a (vsub k o)) <> 0 ->
  (forall t, dist (move1 e t f) k < delta) ->
  exists flag th, pk3_solve id e p k rhs pt = Some (flag, [[(id, th)]; [(id, th)]]) /\
    forall t, Rabs (dist (move1 e t f) k - delta) <= Rabs (dist (move1 e th f) k - delta) + kdl_eps * dist f o.
Proof. exact pk3_outer. Qed.
Print Assumptions C166_pk3_outer.
(** the other hypotheses are as in C166_pk3_inner_example *)
Example C166_pk3_outer_example : forall t,
  dist (move1 (E ROTATION (V 0 0 1) vzero) t (fapp fid (V 1 0 0))) (V 1 0 0) < dist (fapp (ftrans (V 5 0 0)) (V 1 0 0)) (V 1 0 0).
Proof. exact ex_outer. Qed.

(** C166: PG3, the same with a translation: if none brings the point near enough and the place nearest
    to k is ahead, it is the answer *)
Theorem C166_pg3_ahead_partial : forall id a o p k rhs pt, unit a ->
  let f := fapp pt p in let e := E TRANSLATION a o in let delta := dist (fapp rhs p) k in
  (forall t, delta <= dist (move1 e t f) k) -> 0 <= dot a (vsub k f) ->
  exists flag th, pg3_solve id e p k rhs pt = Some (flag, [[(id, th)]; [(id, th)]]) /\
    forall t, dist (move1 e th f) k <= dist (move1 e t f) k.
Proof. exact pg3_ahead. Qed.
Print Assumptions C166_pg3_ahead_partial.
Example C166_pg3_ahead_example :
  (forall t, dist (fapp (ftrans (V 3 0 2)) vzero) (V 2 0 2) <= dist (move1 (E TRANSLATION (V 0 0 1) vzero) t (fapp fid vzero)) (V 2 0 2)) /\
  0 <= dot (V 0 0 1) (vsub (V 2 0 2) (fapp fid vzero)).
Proof. exact ex_ahead. Qed.

(** C166: both can answer a place that is a unit of length worse than another *)
Theorem C166_distance_refuted :
  (exists id e p k rhs pt flag th t, unit (e_axis e) /\ e_motion e = ROTATION /\ rigid rhs /\ rigid pt /\
    pk3_solve id e p k rhs pt = Some (flag, [[(id, th)]; [(id, th)]]) /\
    Rabs (dist (move1 e t (fapp pt p)) k - dist (fapp rhs p) k) + 1 <= Rabs (dist (move1 e th (fapp pt p)) k - dist (fapp rhs p) k)) /\
  (exists id e p k rhs pt flag th t, unit (e_axis e) /\ e_motion e = TRANSLATION /\ rigid rhs /\ rigid pt /\
    pg3_solve id e p k rhs pt = Some (flag, [[(id, th)]; [(id, th)]]) /\
    Rabs (dist (move1 e t (fapp pt p)) k - dist (fapp rhs p) k) + 1 <= Rabs (dist (move1 e th (fapp pt p)) k - dist (fapp rhs p) k)).
Proof. exact one_nearest_ex. Qed.
Print Assumptions C166_distance_refuted.
