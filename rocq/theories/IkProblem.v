(** Model of ScrewTheoryIkProblem (ScrewTheoryLib): closed-form inverse kinematics as a
    sequence of subproblems.

    The subproblem solvers are parameters: a step is any function from the two frames it
    is given to a flag and a vector of local solutions ([None]: non-finite numbers).
    [None] is also the outcome of an access out of bounds (joint identifiers that are not
    joints of the formula). *)
From Coq Require Import Reals List Bool Arith.
From Verif Require Import Kdl Screw Trig Subproblems.
Import ListNotations.
Open Scope R_scope.
Local Notation S := Datatypes.S.

(** ScrewTheoryIkProblem.hpp 25-84: ScrewTheoryIkSubproblem; [st_solve rhs pointTransform] *)
Record step := Step { st_solve : frame -> frame -> option (bool * solutions); st_count : nat }.

(** ScrewTheoryIkProblem.hpp 144-149: enum poe_term *)
Inductive term := KNOWN | COMPUTED | UNKNOWN.

(** ScrewTheoryIkProblem.cpp 28-38: computeSolutions *)
Definition computeSolutions (steps : list step) : nat :=
  match steps with [] => O | _ => fold_left (fun n s => (n * st_count s)%nat) steps 1%nat end.

(** ScrewTheoryIkProblem.cpp 14-17: getTheta *)
Definition getTheta (q : list R) (i : nat) (reversed : bool) : option R :=
  if reversed then option_map Ropp (nth_error q (length q - 1 - i)) else nth_error q i.

(** v[i] = x on vectors and joint arrays; [None]: out of bounds *)
Fixpoint upd {A} (l : list A) (i : nat) (x : A) : option (list A) :=
  match l, i with
  | [], _ => None
  | _ :: l', O => Some (x :: l')
  | y :: l', S i' => match upd l' i' x with Some r => Some (y :: r) | None => None end
  end.

(** std::vector::resize *)
Definition resize {A} (l : list A) (n : nat) (d : A) : list A := firstn n l ++ repeat d (n - length l).

Section Problem.
Variable es : list mexp.   (* the exponentials of the formula *)
Variable reversed : bool.

(** lines 197-201: multiply every frame by the exponential of joint i *)
Fixpoint mul_frames (i : nat) (sols : list (list R)) (fs : list frame) : option (list frame) :=
  match sols, fs with
  | [], _ => Some fs
  | q :: sols', f :: fs' =>
      match nth_error es i, getTheta q i reversed, mul_frames i sols' fs' with
      | Some e, Some th, Some r => Some (fmul f (asFrame e th) :: r)
      | _, _, _ => None
      end
  | _ :: _, [] => None
  end.

(** ScrewTheoryIkProblem.cpp 182-220: recalculateFrames(..., backwards); the loop counter is
    itself replaced by [size - 1 - i] when going backwards, then incremented.  [fuel]
    bounds the number of iterations (size + 1 is always enough). *)
Fixpoint recalc_loop (backwards : bool) (fuel i : nat) (sols : list (list R)) (fs : list frame) (ts : list term) (has : bool)
  : option (list frame * list term * bool) :=
  match fuel with
  | O => None
  | S fuel' =>
      if Nat.ltb i (length ts) then
        let i' := if backwards then (length ts - 1 - i)%nat else i in
        match nth_error ts i' with
        | Some KNOWN =>
            match mul_frames i' sols fs, upd ts i' COMPUTED with
            | Some fs', Some ts' => recalc_loop backwards fuel' (S i') sols fs' ts' true
            | _, _ => None
            end
        | Some COMPUTED => recalc_loop backwards fuel' (S i') sols fs ts has
        | Some UNKNOWN => Some (fs, ts, has)
        | None => None
        end
      else Some (fs, ts, has)
  end.
Definition recalc_dir (backwards : bool) (sols : list (list R)) (ts : list term) : option (list frame * list term * bool) :=
  recalc_loop backwards (S (length ts)) O sols (repeat fid (length sols)) ts false.

(** ScrewTheoryIkProblem.cpp 157-178: recalculateFrames *)
Definition recalculateFrames (sols : list (list R)) (rhs : list frame) (ts : list term) : option (list frame * list term) :=
  match recalc_dir false sols ts with
  | None => None
  | Some (pre, ts1, has1) =>
      let rhs1 := if has1 then map (fun fr => fmul (finv (fst fr)) (snd fr)) (combine pre rhs) else rhs in
      match recalc_dir true sols ts1 with
      | None => None
      | Some (post, ts2, has2) =>
          Some (if has2 then map (fun fr => fmul (snd fr) (finv (fst fr))) (combine post rhs1) else rhs1, ts2)
      end
  end.

(** ScrewTheoryIkProblem.cpp 224-261: transformPoint; loop from the last term down to the first *)
Fixpoint transform_loop (n : nat) (q : list R) (ts : list term) (h : frame) (foundKnown foundUnknown : bool) : option frame :=
  match n with
  | O => Some h
  | S i =>
      match nth_error ts i with
      | Some KNOWN =>
          match nth_error es i, getTheta q i reversed with
          | Some e, Some th => transform_loop i q ts (fmul (asFrame e th) h) true foundUnknown
          | _, _ => None
          end
      | Some UNKNOWN => if foundKnown then Some h else transform_loop i q ts h foundKnown true
      | Some COMPUTED => if foundKnown || foundUnknown then Some h else transform_loop i q ts h foundKnown foundUnknown
      | None => None
      end
  end.
Definition transformPoint (q : list R) (ts : list term) : option frame :=
  transform_loop (length ts) q ts fid false false.

(** ScrewTheoryIkProblem.cpp 126-144: store one local solution into the joint array [q];
    the marks and the joint array are updated pair by pair *)
Fixpoint store (loc : local_solution) (q : list R) (ts : list term) : option (list R * list term) :=
  match loc with
  | [] => Some (q, ts)
  | (id, theta) :: loc' =>
      match upd ts id KNOWN with
      | None => None
      | Some ts' =>
          match upd q (if reversed then length es - 1 - id else id)%nat (if reversed then - theta else theta) with
          | None => None
          | Some q' => store loc' q' ts'
          end
      end
  end.

(** lines 120-145: local solution k goes to the candidate [j + previousSize * k] *)
Fixpoint store_all (locs : solutions) (idx prev : nat) (sols : list (list R)) (ts : list term) : option (list (list R) * list term) :=
  match locs with
  | [] => Some (sols, ts)
  | loc :: locs' =>
      match nth_error sols idx with
      | None => None
      | Some q =>
          match store loc q ts with
          | None => None
          | Some (q', ts') =>
              match upd sols idx q' with
              | None => None
              | Some sols' => store_all locs' (idx + prev)%nat prev sols' ts'
              end
          end
      end
  end.

(** lines 108-116: copy element j to j + prev, j + 2 prev, ... ([k] copies left) *)
Fixpoint replicate {A} (k : nat) (idx prev : nat) (x : A) (l : list A) : option (list A) :=
  match k with
  | O => Some l
  | S k' => match upd l idx x with Some l' => replicate k' (idx + prev)%nat prev x l' | None => None end
  end.

(** state of the loop over the branches *)
Record ik_state := IkSt { k_sols : list (list R); k_rhs : list frame; k_terms : list term; k_reach : bool }.

(** lines 89-146: body of the loop over the branches *)
Definition branch_body (s : step) (prev j : nat) (st : ik_state) : option ik_state :=
  match nth_error (k_sols st) j, nth_error (k_rhs st) j with
  | Some q, Some rhs =>
      match transformPoint q (k_terms st) with
      | None => None
      | Some h =>
          match st_solve s rhs h with
          | None => None
          | Some (flag, locs) =>
              let m := length locs in
              let r :=
                if Nat.ltb 1 m then
                  match replicate (m - 1) (j + prev) prev q (resize (k_sols st) (prev * m) []),
                        replicate (m - 1) (j + prev) prev rhs (resize (k_rhs st) (prev * m) fid) with
                  | Some a, Some b => Some (a, b)
                  | _, _ => None
                  end
                else Some (k_sols st, k_rhs st) in
              match r with
              | None => None
              | Some (sols, rhss) =>
                  match store_all locs j prev sols (k_terms st) with
                  | None => None
                  | Some (sols', ts') => Some (IkSt sols' rhss ts' (k_reach st && flag))
                  end
              end
          end
      end
  | _, _ => None
  end.

Fixpoint branch_loop (s : step) (prev : nat) (js : list nat) (st : ik_state) : option ik_state :=
  match js with
  | [] => Some st
  | j :: js' => match branch_body s prev j st with Some st' => branch_loop s prev js' st' | None => None end
  end.

(** lines 77-149: one step *)
Definition step_body (first : bool) (s : step) (st : ik_state) : option ik_state :=
  match (if first then Some (k_rhs st, k_terms st) else recalculateFrames (k_sols st) (k_rhs st) (k_terms st)) with
  | None => None
  | Some (rhs, ts) =>
      let prev := length (k_sols st) in
      branch_loop s prev (seq 0 prev) (IkSt (k_sols st) rhs ts (k_reach st))
  end.
Fixpoint steps_loop (first : bool) (ss : list step) (st : ik_state) : option ik_state :=
  match ss with
  | [] => Some st
  | s :: ss' => match step_body first s st with Some st' => steps_loop false ss' st' | None => None end
  end.
End Problem.

(** ScrewTheoryIkProblem.cpp 62-153: solve; returns the reachability flag and the candidates *)
Definition ik_init (p : poe) (reversed : bool) (H : frame) : ik_state :=
  IkSt [repeat 0 (length (exps p))] [fmul (if reversed then finv H else H) (finv (tool p))]
       (repeat UNKNOWN (length (exps p))) true.
Definition ik_solve (p : poe) (steps : list step) (reversed : bool) (H : frame) : option (bool * list (list R)) :=
  match steps_loop (exps p) reversed true steps (ik_init p reversed H) with
  | Some st => Some (k_reach st, k_sols st)
  | None => None
  end.

(** ** The subproblems as steps, with the number of solutions each declares
    (ScrewTheoryIkSubproblems.hpp, the methods solutions()) *)
Definition pk1_step id e p := Step (pk1_solve id e p) 1.
Definition pk2_step id1 id2 e1 e2 p r := Step (pk2_solve id1 id2 e1 e2 p r) 2.
Definition pk3_step id e p k := Step (pk3_solve id e p k) 2.
Definition pg1_step id e p := Step (pg1_solve id e p) 1.
Definition pg2_step id1 id2 e1 e2 p := Step (pg2_solve id1 id2 e1 e2 p) 1.
Definition pg3_step id e p k := Step (pg3_solve id e p k) 2.
Definition pg4_step id1 id2 e1 e2 p := Step (pg4_solve id1 id2 e1 e2 p) 2.
