(** When the subproblems of one joint report a target as reachable (C167). *)
From Coq Require Import Reals List.
From Verif Require Import Kdl KdlFacts Screw Subproblems RecognisedFacts.
Import ListNotations.
Open Scope R_scope.

(** C167: PK1 reports a target reachable if some rotation brings the point to within 1e-6 of it (C09:
    and if it does so then its rotation comes near to it) *)
Theorem C167_pk1 : forall id a o p rhs pt t, unit a ->
  dist (move1 (E ROTATION a o) t (fapp pt p)) (fapp rhs p) < kdl_eps ->
  exists sols, pk1_solve id (E ROTATION a o) p rhs pt = Some (true, sols).
Proof. exact pk1_recognised. Qed.
Print Assumptions C167_pk1.
Example C167_pk1_example : unit (V 0 0 1) /\
  dist (move1 (E ROTATION (V 0 0 1) vzero) 0 (fapp fid (V 1 0 0))) (fapp (ftrans (V (kdl_eps / 2) 0 0)) (V 1 0 0)) < kdl_eps.
Proof. exact (conj unit_ez ex_missed). Qed.

(** C167: PK3 reports the wanted distance reachable exactly if some rotation brings the point to it up to
    the tolerance, 1e-6 of twice the product of the distances from the axis, in the square *)
Theorem C167_pk3 : forall id a o p k rhs pt, unit a ->
  let f := fapp pt p in let e := E ROTATION a o in let delta := dist (fapp rhs p) k in
  let nu := norm (perp a (vsub f o)) in let nv := norm (perp a (vsub k o)) in nu <> 0 -> nv <> 0 ->
  (exists sols, pk3_solve id e p k rhs pt = Some (true, sols)) <->
  exists t, Rabs (dist (move1 e t f) k * dist (move1 e t f) k - delta * delta) < 2 * (nu * nv) * kdl_eps.
Proof. exact pk3_recognised. Qed.
Print Assumptions C167_pk3.
Example C167_pk3_example : norm (perp (V 0 0 1) (vsub (fapp fid (V 1 0 0)) vzero)) <> 0 /\ norm (perp (V 0 0 1) (vsub (V 1 0 0) vzero)) <> 0 /\
  exists t, Rabs (dist (move1 (E ROTATION (V 0 0 1) vzero) t (fapp fid (V 1 0 0))) (V 1 0 0) * dist (move1 (E ROTATION (V 0 0 1) vzero) t (fapp fid (V 1 0 0))) (V 1 0 0)
    - dist (fapp (ftrans (V (kdl_eps / 2) 0 0)) (V 1 0 0)) (V 1 0 0) * dist (fapp (ftrans (V (kdl_eps / 2) 0 0)) (V 1 0 0)) (V 1 0 0))
    < 2 * (norm (perp (V 0 0 1) (vsub (fapp fid (V 1 0 0)) vzero)) * norm (perp (V 0 0 1) (vsub (V 1 0 0) vzero))) * kdl_eps.
Proof. exact ex_missed3. Qed.

(** C167: PG3 the same with a translation, up to 1e-6 in the square *)
Theorem C167_pg3 : forall id a o p k rhs pt, unit a ->
  let f := fapp pt p in let e := E TRANSLATION a o in let delta := dist (fapp rhs p) k in
  (exists sols, pg3_solve id e p k rhs pt = Some (true, sols)) <->
  exists t, Rabs (dist (move1 e t f) k * dist (move1 e t f) k - delta * delta) < kdl_eps.
Proof. exact pg3_recognised. Qed.
Print Assumptions C167_pg3.
Example C167_pg3_example : exists t,
  Rabs (dist (move1 (E TRANSLATION (V 0 0 1) vzero) t (fapp fid vzero)) (V 2 0 (-2)) * dist (move1 (E TRANSLATION (V 0 0 1) vzero) t (fapp fid vzero)) (V 2 0 (-2))
    - dist (fapp (ftrans (V 4 0 (-2))) vzero) (V 2 0 (-2)) * dist (fapp (ftrans (V 4 0 (-2))) vzero) (V 2 0 (-2))) < kdl_eps.
Proof. exact ex_missed_pg3. Qed.
