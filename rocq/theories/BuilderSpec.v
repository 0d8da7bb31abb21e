(** Specification vocabulary of the search of subproblems.  Nothing here models code. *)
From Coq Require Import Reals List.
From Verif Require Import Kdl Screw Builder.
Import ListNotations.
Open Scope R_scope.
Local Notation S := Datatypes.S.

(** every component is below the tolerance *)
Definition small (v : vec) : Prop := Rabs (vx v) < kdl_eps /\ Rabs (vy v) < kdl_eps /\ Rabs (vz v) < kdl_eps.
(** the point is on the axis, the axes are parallel: within the tolerance *)
Definition near_axis (e : mexp) (p : vec) : Prop := small (cross (vsub p (e_origin e)) (e_axis e)).
Definition near_parallel (e1 e2 : mexp) : Prop := small (cross (e_axis e1) (e_axis e2)).
Definition point_on (e : mexp) (t : R) : vec := vadd (e_origin e) (vscale t (e_axis e)).

(** the geometric condition under which each subproblem applies to the terms of [es] *)
Definition accepted (es : list mexp) (s : sub) : Prop :=
  match s with
  | SPK1 id e p => nth_error es id = Some e /\ e_motion e = ROTATION /\ ~ near_axis e p
  | SPK2 id1 id2 e1 e2 p r =>
      id2 = S id1 /\ nth_error es id1 = Some e1 /\ nth_error es id2 = Some e2 /\
      e_motion e1 = ROTATION /\ e_motion e2 = ROTATION /\ ~ near_parallel e2 e1 /\
      exists t1 t2, r = point_on e2 t2 /\ small (vsub r (point_on e1 t1))
  | SPK3 id e p k => nth_error es id = Some e /\ e_motion e = ROTATION /\ ~ near_axis e p /\ ~ near_axis e k
  | SPG1 id e p => nth_error es id = Some e /\ e_motion e = TRANSLATION
  | SPG2 id1 id2 e1 e2 p =>
      id2 = S id1 /\ nth_error es id1 = Some e1 /\ nth_error es id2 = Some e2 /\
      e_motion e1 = TRANSLATION /\ e_motion e2 = TRANSLATION /\ ~ near_parallel e2 e1
  | SPG3 id e p k => nth_error es id = Some e /\ e_motion e = TRANSLATION
  | SPG4 id1 id2 e1 e2 p =>
      id2 = S id1 /\ nth_error es id1 = Some e1 /\ nth_error es id2 = Some e2 /\
      e_motion e1 = ROTATION /\ e_motion e2 = ROTATION /\ near_parallel e2 e1 /\ ~ near_axis e2 (e_origin e1)
  end.

(** the term [j] does not move the point [p] *)
Definition holds (es : list mexp) (j : nat) (p : vec) : Prop :=
  exists e, nth_error es j = Some e /\ e_motion e = ROTATION /\ near_axis e p.
(** the step, taken when the terms [K] are known, determines its terms: the terms to its left
    are known (or fix the second point), the terms to its right are known or fix the first *)
Definition justified (es : list mexp) (K : list nat) (s : sub) : Prop :=
  match s with
  | SPK1 id _ p | SPG1 id _ p =>
      (forall j, (j < id)%nat -> In j K) /\
      (forall j, (id < j < length es)%nat -> In j K \/ holds es j p)
  | SPK2 id1 id2 _ _ p _ | SPG2 id1 id2 _ _ p | SPG4 id1 id2 _ _ p =>
      (forall j, (j < id1)%nat -> In j K) /\
      (forall j, (id2 < j < length es)%nat -> In j K \/ holds es j p)
  | SPK3 id _ p k | SPG3 id _ p k =>
      (forall j, (j < id)%nat -> (forall i, (i <= j)%nat -> In i K) \/ holds es j k) /\
      (forall j, (id < j < length es)%nat -> (forall i, (j <= i < length es)%nat -> In i K) \/ holds es j p)
  end.

(** steps that use two points; formulas without sliding joints *)
Definition two_points (s : sub) : Prop := match s with SPK3 _ _ _ _ | SPG3 _ _ _ _ => True | _ => False end.
Definition no_translation (es : list mexp) : Prop := Forall (fun e => e_motion e = ROTATION) es.
