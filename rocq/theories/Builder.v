(** Model of ScrewTheoryIkProblemBuilder (ScrewTheoryLib): search of the sequence of
    subproblems that solves the inverse kinematics of a product of exponentials. *)
From Coq Require Import Reals List Bool Arith.
From Verif Require Import Kdl Screw Trig Subproblems IkProblem.
Import ListNotations.
Open Scope R_scope.
Local Notation S := Datatypes.S.

(** ** Geometric tests (all with KDL's tolerance) *)

(** ScrewTheoryIkProblemBuilder.cpp 18-21 *)
Definition liesOnAxis (e : mexp) (p : vec) : bool :=
  EqualV (cross (vsub p (e_origin e)) (e_axis e)) vzero.
(** 23-26 *)
Definition parallelAxes (e1 e2 : mexp) : bool := EqualV (cross (e_axis e1) (e_axis e2)) vzero.
(** 28-31 *)
Definition perpendicularAxes (e1 e2 : mexp) : bool := Equal (dot (e_axis e1) (e_axis e2)) 0.
(** 33-36 *)
Definition colinearAxes (e1 e2 : mexp) : bool := parallelAxes e1 e2 && liesOnAxis e1 (e_origin e2).
(** 38-57: the point, when the test succeeds.  A zero denominator makes both points
    non-finite, and KDL::Equal is false of those. *)
Definition intersectingAxes (e1 e2 : mexp) : option vec :=
  let c := cross (e_axis e1) (e_axis e2) in
  let diff := vsub (e_origin e2) (e_origin e1) in
  let den := pow2 (norm c) in
  if Reqb den 0 then None
  else
    let t := dot c (cross diff (e_axis e2)) / den in
    let s := dot c (cross diff (e_axis e1)) / den in
    let l1 := vadd (e_origin e1) (vscale t (e_axis e1)) in
    let l2 := vadd (e_origin e2) (vscale s (e_axis e2)) in
    if EqualV l1 l2 then Some l1 else None.

Definition is_rotation (e : mexp) : bool := match e_motion e with ROTATION => true | TRANSLATION => false end.
Definition is_translation (e : mexp) : bool := negb (is_rotation e).
(** 59-63 *)
Definition planarMovement (e1 e2 : mexp) : bool :=
  if Bool.eqb (is_rotation e1) (is_rotation e2) then parallelAxes e1 e2 else perpendicularAxes e1 e2.
(** 65-69 *)
Definition normalPlaneMovement (e1 e2 : mexp) : bool :=
  if Bool.eqb (is_rotation e1) (is_rotation e2) then perpendicularAxes e1 e2 else parallelAxes e1 e2.

(** ** Characteristic points *)

(** 71-102: compare_vectors *)
Definition compare_vectors (l r : vec) : bool :=
  if Equal (vx l) (vx r) then
    if Equal (vy l) (vy r) then
      if Equal (vz l) (vz r) then false else Rltb (vz l) (vz r)
    else Rltb (vy l) (vy r)
  else Rltb (vx l) (vx r).

(** std::set::insert: new contents, or [None] if an equivalent element is present.
    Simplification: the set is kept as an increasing list searched from the left.  This is
    what the standard prescribes for a strict weak ordering; [compare_vectors] is one only
    on points that are not chained by differences close to the tolerance. *)
Fixpoint pt_insert (x : vec) (l : list vec) : option (list vec) :=
  match l with
  | [] => Some [x]
  | y :: l' =>
      if compare_vectors x y then Some (x :: l)
      else if compare_vectors y x then option_map (cons y) (pt_insert x l')
      else None
  end.
Definition pt_add (x : vec) (l : list vec) : list vec :=
  match pt_insert x l with Some l' => l' | None => l end.

(** 158-197: a point of each rotation axis and the intersections *)
Definition intersections (e : mexp) (others : list mexp) (l : list vec) : list vec :=
  fold_left (fun acc e2 =>
    if is_rotation e2 && negb (parallelAxes e e2) && negb (colinearAxes e e2)
    then match intersectingAxes e e2 with Some p => pt_add p acc | None => acc end
    else acc) others l.
Definition axis_points (es : list mexp) (l : list vec) : list vec :=
  fold_left (fun acc e =>
    if is_rotation e then intersections e (tl es) (pt_add (e_origin e) acc) else acc) es l.

(** 212-217: draw factors until the point is new; [None]: still drawing when the recorded
    draws run out *)
Fixpoint draw_point (e : mexp) (draws : list R) (l : list vec) : option (list vec * list R) :=
  match draws with
  | [] => None
  | f :: draws' =>
      match pt_insert (vadd (e_origin e) (vscale f (e_axis e))) l with
      | Some l' => Some (l', draws')
      | None => draw_point e draws' l
      end
  end.
(** 199-218 *)
Fixpoint random_points (es : list mexp) (draws : list R) (l : list vec) : option (list vec * list R) :=
  match es with
  | [] => Some (l, draws)
  | e :: es' =>
      if is_rotation e then
        match draw_point e draws l with Some (l', draws') => random_points es' draws' l' | None => None end
      else random_points es' draws l
  end.
(** 151-227: searchPoints; [draws]: the numbers that KDL::random returns, in order *)
Definition searchPoints (p : poe) (draws : list R) : option (list vec * list R) :=
  match random_points (exps p) draws (axis_points (exps p) (pt_add vzero [])) with
  | None => None
  | Some (l, draws') => Some (pt_add (fp (tool p)) l, draws')
  end.

(** ** State of the terms *)

(** ScrewTheoryIkProblem.hpp 186-190: PoeTerm, beside the exponential of the same index
    (both vectors have the size of the formula) *)
Record pterm := PT { t_exp : mexp; t_known : bool; t_simp : bool }.
Definition set_known (t : pterm) : pterm := PT (t_exp t) true (t_simp t).
Definition set_simp (t : pterm) : pterm := PT (t_exp t) (t_known t) true.

(** ScrewTheoryIkProblemBuilder.cpp 104-129: the four predicates *)
Definition unknownTerm (t : pterm) : bool := negb (t_known t).
Definition knownNotSimplifiedTerm (t : pterm) : bool := t_known t && negb (t_simp t).
Definition unknownNotSimplifiedTerm (t : pterm) : bool := negb (t_known t) && negb (t_simp t).

(** std::count_if *)
Definition count (f : pterm -> bool) (ts : list pterm) : nat := length (filter f ts).
(** std::find_if from the left, as an index *)
Fixpoint find_first (f : pterm -> bool) (ts : list pterm) : option nat :=
  match ts with [] => None | t :: ts' => if f t then Some O else option_map S (find_first f ts') end.
(** std::find_if from the right, as an index from the left *)
Fixpoint find_last (f : pterm -> bool) (ts : list pterm) : option nat :=
  match ts with
  | [] => None
  | t :: ts' => match find_last f ts' with Some i => Some (S i) | None => if f t then Some O else None end
  end.
(** update of the element i *)
Fixpoint change (g : pterm -> pterm) (i : nat) (ts : list pterm) : list pterm :=
  match ts, i with
  | [], _ => []
  | t :: ts', O => g t :: ts'
  | t :: ts', S i' => t :: change g i' ts'
  end.
(** poe.exponentialAtJoint(i), for indices of the vector *)
Definition exp_at (ts : list pterm) (i : nat) : mexp := nth i (map t_exp ts) (E ROTATION vzero vzero).

(** 347-380: refreshSimplificationState *)
Fixpoint mark_leading (ts : list pterm) : list pterm :=
  match ts with t :: ts' => if t_known t then set_simp t :: mark_leading ts' else ts | [] => [] end.
Definition refresh (ts : list pterm) : list pterm :=
  rev (mark_leading (rev (mark_leading (map (fun t => PT (t_exp t) (t_known t) false) ts)))).

(** 520-533: simplify leftwards, starting at the term number n - 1 *)
Fixpoint simp_left (n : nat) (p : vec) (ts : list pterm) : list pterm :=
  match n with
  | O => ts
  | S i =>
      if is_rotation (exp_at ts i) && liesOnAxis (exp_at ts i) p
      then simp_left i p (change set_simp i ts) else ts
  end.
(** 515-534: simplifyWithPadenKahanOne *)
Definition simplifyPK1 (p : vec) (ts : list pterm) : list pterm :=
  match find_last unknownTerm ts with None => ts | Some i => simp_left (S i) p ts end.

(** 543-556: simplify rightwards, [k] terms left *)
Fixpoint simp_right (k i : nat) (p : vec) (ts : list pterm) : list pterm :=
  match k with
  | O => ts
  | S k' =>
      if is_rotation (exp_at ts i) && liesOnAxis (exp_at ts i) p
      then simp_right k' (S i) p (change set_simp i ts) else ts
  end.
(** 538-557: simplifyWithPadenKahanThree *)
Definition simplifyPK3 (p : vec) (ts : list pterm) : list pterm :=
  match find_first unknownTerm ts with None => ts | Some i => simp_right (length ts - i) i p ts end.

(** 582-607: whether the loop reaches [idStart] and its test succeeds; [i] is the counter *)
Fixpoint plane_right (ts : list pterm) (idStart i : nat) : bool :=
  if Nat.eqb i idStart then normalPlaneMovement (exp_at ts idStart) (exp_at ts (S i))
  else planarMovement (exp_at ts i) (exp_at ts (S i)) &&
       match i with O => false | S i' => plane_right ts idStart i' end.
(** 612-635: likewise towards [idEnd]; [k] iterations left after this one *)
Fixpoint plane_left (ts : list pterm) (idEnd k i : nat) : bool :=
  if Nat.eqb i idEnd then normalPlaneMovement (exp_at ts (i - 1)) (exp_at ts idEnd)
  else planarMovement (exp_at ts (i - 1)) (exp_at ts i) &&
       match k with O => false | S k' => plane_left ts idEnd k' (S i) end.
(** 600-603, 628-631: simplify the terms lo, ..., lo + len - 1 *)
Definition simp_range (lo len : nat) (ts : list pterm) : list pterm :=
  fold_left (fun acc j => change set_simp j acc) (seq lo len) ts.
(** 561-637: simplifyWithPardosOne *)
Definition simplifyPG1 (ts : list pterm) : list pterm :=
  match find_first unknownNotSimplifiedTerm ts, find_last unknownNotSimplifiedTerm ts with
  | Some idStart, Some idEnd =>
      if Nat.leb idEnd idStart then ts
      else if is_translation (exp_at ts idStart) then
        if plane_right ts idStart (idEnd - 1) then simp_range (S idStart) (idEnd - idStart) ts else ts
      else if is_translation (exp_at ts idEnd) then
        if plane_left ts idEnd (idEnd - idStart - 1) (S idStart) then simp_range idStart (idEnd - idStart) ts else ts
      else ts
  | _, _ => ts
  end.

(** 492-511: simplify *)
Definition simplify (depth : nat) (p0 p1 : vec) (ts : list pterm) : list pterm :=
  let ts1 := simplifyPK1 p0 ts in
  if Nat.eqb depth 1 then simplifyPK3 p1 ts1
  else if existsb (fun t => is_translation (t_exp t)) ts1 then simplifyPG1 ts1 else ts1.

(** ** The search *)

(** the subproblem objects, with the arguments of their constructors *)
Inductive sub :=
| SPK1 (id : nat) (e : mexp) (p : vec)
| SPK2 (id1 id2 : nat) (e1 e2 : mexp) (p r : vec)
| SPK3 (id : nat) (e : mexp) (p k : vec)
| SPG1 (id : nat) (e : mexp) (p : vec)
| SPG2 (id1 id2 : nat) (e1 e2 : mexp) (p : vec)
| SPG3 (id : nat) (e : mexp) (p k : vec)
| SPG4 (id1 id2 : nat) (e1 e2 : mexp) (p : vec).

(** outcome of trySolve; [Invalid]: access past the end of the vector of terms *)
Inductive attempt := Solved (s : sub) (ts : list pterm) | NotYet | Invalid.

(** 384-488: trySolve *)
Definition trySolve (depth : nat) (p0 p1 : vec) (ts : list pterm) : attempt :=
  let unknowns := count unknownNotSimplifiedTerm ts in
  if Nat.eqb unknowns 0 || Nat.ltb 2 unknowns then NotYet
  else
    match find_last unknownNotSimplifiedTerm ts with
    | None => Invalid
    | Some l =>
        let e := exp_at ts l in
        if Nat.eqb unknowns 1 then
          if Nat.eqb depth 0 then
            if is_rotation e && negb (liesOnAxis e p0) then Solved (SPK1 l e p0) (change set_known l ts)
            else if is_translation e then Solved (SPG1 l e p0) (change set_known l ts)
            else NotYet
          else if Nat.eqb depth 1 then
            if existsb knownNotSimplifiedTerm ts then NotYet
            else if is_rotation e && negb (liesOnAxis e p0) && negb (liesOnAxis e p1)
            then Solved (SPK3 l e p0 p1) (change set_known l ts)
            else if is_translation e then Solved (SPG3 l e p0 p1) (change set_known l ts)
            else NotYet
          else NotYet
        else
          match l with
          | O => Invalid
          | S l0 =>
              match nth_error ts l0 with
              | None => Invalid
              | Some t0 =>
                  if negb (unknownNotSimplifiedTerm t0) then NotYet
                  else
                    let e0 := exp_at ts l0 in
                    let both := change set_known l0 (change set_known l ts) in
                    if Nat.eqb depth 0 then
                      match (if is_rotation e && is_rotation e0 && negb (parallelAxes e e0)
                             then intersectingAxes e e0 else None) with
                      | Some r => Solved (SPK2 l0 l e0 e p0 r) both
                      | None =>
                          if is_translation e && is_translation e0 && negb (parallelAxes e e0)
                          then Solved (SPG2 l0 l e0 e p0) both
                          else if is_rotation e && is_rotation e0 && parallelAxes e e0 && negb (colinearAxes e e0)
                          then Solved (SPG4 l0 l e0 e p0) both
                          else NotYet
                      end
                    else NotYet
              end
          end
    end.

(** state of the loop of searchSolutions: the two iterators as indices, the two points
    under test, the depth, the terms and the steps *)
Record search_state := Sr {
  sr_i0 : nat; sr_i1 : nat; sr_p0 : vec; sr_p1 : vec; sr_depth : nat; sr_terms : list pterm; sr_steps : list sub }.

(** 313-337: advance the iterators *)
Definition advance (pts : list vec) (st : search_state) : search_state :=
  let first := nth 0 pts vzero in
  let i0 := S (sr_i0 st) in
  if Nat.eqb i0 (length pts) then
    if Nat.eqb (sr_depth st) 0 then Sr 0 (sr_i1 st) first (sr_p1 st) 1 (sr_terms st) (sr_steps st)
    else
      let i1 := S (sr_i1 st) in
      if Nat.eqb i1 (length pts) then
        Sr 0 0 first first (if Nat.eqb (sr_depth st) 1 then 2 else sr_depth st) (sr_terms st) (sr_steps st)
      else Sr 0 i1 first (nth i1 pts vzero) (sr_depth st) (sr_terms st) (sr_steps st)
  else Sr i0 (sr_i1 st) (nth i0 pts vzero) (sr_p1 st) (sr_depth st) (sr_terms st) (sr_steps st).

(** 295-337: body of the loop; [None]: access past the end *)
Definition search_body (pts : list vec) (st : search_state) : option search_state :=
  let ts := simplify (sr_depth st) (sr_p0 st) (sr_p1 st) (refresh (sr_terms st)) in
  match trySolve (sr_depth st) (sr_p0 st) (sr_p1 st) ts with
  | Invalid => None
  | Solved s ts' => Some (Sr 0 0 (nth 0 pts vzero) (sr_p1 st) 0 ts' (sr_steps st ++ [s]))
  | NotYet => Some (advance pts (Sr (sr_i0 st) (sr_i1 st) (sr_p0 st) (sr_p1 st) (sr_depth st) ts (sr_steps st)))
  end.

Inductive outcome (A : Type) := Returns (a : A) | Running | Undefined.
Arguments Returns {A} a.
Arguments Running {A}.
Arguments Undefined {A}.

(** 293-340: the loop; [fuel] bounds the iterations *)
Fixpoint search_loop (fuel : nat) (pts : list vec) (st : search_state) : outcome search_state :=
  match fuel with
  | O => Running
  | S fuel' =>
      match search_body pts st with
      | None => Undefined
      | Some st' =>
          if Nat.ltb (sr_depth st') 2 && negb (Nat.eqb (count unknownTerm (sr_terms st')) 0)
          then search_loop fuel' pts st' else Returns st'
      end
  end.

(** 277-343: searchSolutions, given the characteristic points; all terms unknown *)
Definition searchSolutions (fuel : nat) (pts : list vec) (es : list mexp) : outcome (list pterm * list sub) :=
  let first := nth 0 pts vzero in
  match search_loop fuel pts (Sr 0 0 first first 0 (map (fun e => PT e false false) es) []) with
  | Returns st => Returns (sr_terms st, sr_steps st)
  | Running => Running
  | Undefined => Undefined
  end.

(** 231-273: build, given the points of each search ([None]: they are still being drawn): the
    formula, the steps and the direction of the problem; [None] is the null pointer *)
Definition build_with (fuel : nat) (pts pts_rev : option (list vec)) (p : poe)
  : outcome (option (poe * list sub * bool)) :=
  match option_map (fun l => searchSolutions fuel l (exps p)) pts with
  | None | Some Running => Running
  | Some Undefined => Undefined
  | Some (Returns (ts, ss)) =>
      if Nat.eqb (count t_known ts) (length (exps p)) then Returns (Some (p, ss, false))
      else
        let p' := reverseSelf p in
        match option_map (fun l => searchSolutions fuel l (exps p')) pts_rev with
        | None | Some Running => Running
        | Some Undefined => Undefined
        | Some (Returns (ts', ss')) =>
            if Nat.eqb (count t_known ts') (length (exps p')) then Returns (Some (p', ss', true)) else Returns None
        end
  end.

(** 231-273 with the points that searchPoints finds (279); [draws] as in [searchPoints] *)
Definition build (fuel : nat) (draws : list R) (p : poe) : outcome (option (poe * list sub * bool)) :=
  match searchPoints p draws with
  | None => Running
  | Some (pts, draws') => build_with fuel (Some pts) (option_map fst (searchPoints (reverseSelf p) draws')) p
  end.

(** ** From the objects to the steps of the problem *)
Definition sub_step (s : sub) : step :=
  match s with
  | SPK1 id e p => pk1_step id e p
  | SPK2 id1 id2 e1 e2 p r => pk2_step id1 id2 e1 e2 p r
  | SPK3 id e p k => pk3_step id e p k
  | SPG1 id e p => pg1_step id e p
  | SPG2 id1 id2 e1 e2 p => pg2_step id1 id2 e1 e2 p
  | SPG3 id e p k => pg3_step id e p k
  | SPG4 id1 id2 e1 e2 p => pg4_step id1 id2 e1 e2 p
  end.
Definition sub_ids (s : sub) : list nat :=
  match s with
  | SPK1 id _ _ | SPK3 id _ _ _ | SPG1 id _ _ | SPG3 id _ _ _ => [id]
  | SPK2 id1 id2 _ _ _ _ | SPG2 id1 id2 _ _ _ | SPG4 id1 id2 _ _ _ => [id1; id2]
  end.
(** the problem as the model of solve takes it *)
Definition problem_steps (ss : list sub) : list (step * list nat) := map (fun s => (sub_step s, sub_ids s)) ss.
