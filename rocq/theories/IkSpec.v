(** Specification vocabulary of the closed-form inverse kinematics.  Nothing here models
    code; the library is mentioned only where [code_marks] records what it does. *)
From Coq Require Import Reals List Bool Arith.
From Verif Require Import Kdl Screw Subproblems IkProblem.
Import ListNotations.
Open Scope R_scope.
Local Notation S := Datatypes.S.

(** [l] with its i-th element replaced *)
Fixpoint put {A} (l : list A) (i : nat) (x : A) : list A :=
  match l, i with
  | [], _ => []
  | _ :: l', O => x :: l'
  | y :: l', S i' => y :: put l' i' x
  end.

(** what the solver may rely on: every call returns the declared number of local
    solutions, each one assigning the same joints [ids] *)
Definition step_ok (s : step) (ids : list nat) : Prop :=
  (1 <= st_count s)%nat /\ ids <> [] /\
  forall rhs h flag locs, st_solve s rhs h = Some (flag, locs) ->
    length locs = st_count s /\ forall loc, In loc locs -> map fst loc = ids.

(** steps that assign distinct joints of a formula of [n] terms *)
Definition steps_ok (n : nat) (ss : list (step * list nat)) : Prop :=
  (forall s ids, In (s, ids) ss -> step_ok s ids) /\
  NoDup (concat (map snd ss)) /\ (forall i, In i (concat (map snd ss)) -> (i < n)%nat).

Section IkSpec.
Variable p : poe.
Variable reversed : bool.
Variable target : frame.
Let n := length (exps p).

(** displacement of the i-th term of the formula when the caller's joint vector is [q] *)
Definition slot (i : nat) : nat := if reversed then (length (exps p) - 1 - i)%nat else i.
Definition displ (q : list R) (i : nat) : frame :=
  asFrame (nth i (exps p) (E ROTATION vzero vzero))
    (if reversed then - nth (slot i) q 0 else nth (slot i) q 0).
(** product of the displacements lo, lo+1, ..., lo+len-1 *)
Definition product (q : list R) (lo len : nat) : frame :=
  fold_right (fun i acc => fmul (displ q i) acc) fid (seq lo len).
(** the product of all displacements must equal this *)
Definition goal : frame := fmul (if reversed then finv target else target) (finv (tool p)).

(** [a] is the first term that is not known *)
Definition first_unknown (K : list nat) (a : nat) : Prop :=
  (a < n)%nat /\ ~ In a K /\ forall i, (i < a)%nat -> In i K.
(** right-hand side once the known terms at both ends are moved there.  At the right end
    the library moves one term only. *)
Definition rhs_of (K : list nat) (q : list R) (a : nat) (r : frame) : Prop :=
  (In (n - 1)%nat K /\ r = fmul (finv (product q 0 a)) (fmul goal (finv (displ q (n - 1))))) \/
  (~ In (n - 1)%nat K /\ r = fmul (finv (product q 0 a)) goal).
(** the terms still on the left-hand side are a, ..., b-1 *)
Definition right_end (K : list nat) (b : nat) : Prop :=
  (In (n - 1)%nat K /\ b = (n - 1)%nat) \/ (~ In (n - 1)%nat K /\ b = n).
(** transform of the point: product of the rightmost run of known terms in a, ..., b-1 *)
Definition point_of (K : list nat) (q : list R) (a b : nat) (h : frame) : Prop :=
  (h = fid /\ forall i, (a <= i < b)%nat -> ~ In i K) \/
  exists lo hi, (a <= lo < hi)%nat /\ (hi <= b)%nat /\
    (forall i, (hi <= i < b)%nat -> ~ In i K) /\
    (forall i, (lo <= i < hi)%nat -> In i K) /\
    (lo = a \/ ~ In (lo - 1)%nat K) /\
    h = product q lo (hi - lo).

(** the joint vector after a local solution has been stored *)
Definition assign (loc : local_solution) (q : list R) : list R :=
  fold_left (fun q it => put q (slot (fst it)) (if reversed then - snd it else snd it)) loc q.

(** [derived marks ss ks q b]: the joint vector [q] is obtained by solving the steps [ss] in
    order, taking the local solution number [k] of each (the list [ks]) and feeding each
    step with the transforms given by the joints solved before it; [b] tells whether all
    those steps reported success.  [marks] says which terms count as known for the
    transform of the point, given the path so far, the joints solved before and those of
    the current step. *)
Inductive derived (marks : list nat -> list nat -> list nat -> list nat)
  : list (step * list nat) -> list nat -> list R -> bool -> Prop :=
| dv_start : derived marks [] [] (repeat 0 n) true
| dv_step : forall ss ks q ok s ids a b rhs h flag locs k loc,
    derived marks ss ks q ok ->
    first_unknown (concat (map snd ss)) a ->
    right_end (concat (map snd ss)) b ->
    rhs_of (concat (map snd ss)) q a rhs ->
    point_of (marks ks (concat (map snd ss)) ids) q a b h ->
    st_solve s rhs h = Some (flag, locs) ->
    nth_error locs k = Some loc ->
    derived marks (ss ++ [(s, ids)]) (ks ++ [k]) (assign loc q) (ok && flag).
End IkSpec.

(** only the joints solved before *)
Definition own_marks (ks K ids : list nat) : list nat := K.
(** what the library does: on every branch but the first, the joints of the current step
    already count as known *)
Definition code_marks (ks K ids : list nat) : list nat := if forallb (Nat.eqb 0) ks then K else K ++ ids.

(** the path of the candidate number [c] *)
Fixpoint choices (ss : list (step * list nat)) (c : nat) : list nat :=
  match ss with
  | [] => []
  | (s, _) :: ss' => (c mod st_count s)%nat :: choices ss' (c / st_count s)%nat
  end.
(** number of paths *)
Definition paths (ss : list (step * list nat)) : nat := fold_right (fun s k => (st_count (fst s) * k)%nat) 1%nat ss.

(** every step after the first branching assigns the first unknown terms *)
Definition in_order (p : poe) (ss : list (step * list nat)) : Prop :=
  forall ss0 s ids ss1, ss = ss0 ++ (s, ids) :: ss1 ->
    paths ss0 = 1%nat \/
    forall a, first_unknown p (concat (map snd ss0)) a -> forall i, In i ids <-> (a <= i < a + length ids)%nat.
