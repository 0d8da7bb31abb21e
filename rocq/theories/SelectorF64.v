(** The choice among the solutions of the screw theory solver, on doubles: ConfigurationSelector and
    its two strategies (ScrewTheoryLib), and ChainIkSolverPos_ST::CartToJnt (KdlSolver), call after
    call. The model on real numbers is Selector.v.

    Simplified: the solutions of each call (what ScrewTheoryIkProblem::solve gives) are an input, so
    they can be any doubles; the problem has been built (no E_SOLUTION_NOT_FOUND). *)
From Coq Require Import List ZArith Bool.
From Verif Require Import F64.
Import ListNotations.

(** KDL::epsilon, 0.000001 *)
Definition eps : f64 := lit 1 6.
(** KDL::PI / 2; 884279719003555 / 2^49 is the double nearest to pi / 2 *)
Definition half_pi : f64 := fdiv (ofZ 884279719003555) (ofZ (2 ^ 49)).

(** ConfigurationSelector.cpp 13-16: checkJointInLimits *)
Definition checkJointInLimits (q qMin qMax : f64) : bool := fleb (fsub qMin eps) q && fleb q (fadd qMax eps).

(** ConfigurationSelector.cpp 39-53: validate; [None]: an access out of the bounds of the limits *)
Fixpoint validate (q qMin qMax : list f64) : option bool :=
  match q, qMin, qMax with
  | [], _, _ => Some true
  | v :: q', l :: qMin', h :: qMax' => if checkJointInLimits v l h then validate q' qMin' qMax' else Some false
  | _ :: _, _, _ => None
  end.

(** ConfigurationSelector.hpp 69-103: Configuration *)
Record config := Cfg { c_q : list f64; c_valid : bool }.

(** ConfigurationSelector.cpp 21-35: configure *)
Fixpoint configs (qMin qMax : list f64) (sols : list (list f64)) : option (list config) :=
  match sols with
  | [] => Some []
  | q :: sols' =>
      match validate q qMin qMax, configs qMin qMax sols' with
      | Some v, Some l => Some (Cfg q v :: l)
      | _, _ => None
      end
  end.

(** ConfigurationSelectorLeastOverallAngularDisplacement.cpp 58-72: getDiffs *)
Fixpoint getDiffs (guess q : list f64) : option (list f64) :=
  match guess, q with
  | [], _ => Some []
  | g :: guess', v :: q' => option_map (cons (fabs (fsub g v))) (getDiffs guess' q')
  | _ :: _, [] => None
  end.
(** std::accumulate, 37 *)
Definition displacement (guess q : list f64) : option f64 := option_map (fun l => fold_left fadd l fzero) (getDiffs guess q).

(** std::set<std::pair<double, int>>: the order of pairs, and an insertion *)
Definition pair_ltb (a b : f64 * nat) : bool :=
  fltb (fst a) (fst b) || (negb (fltb (fst b) (fst a)) && Nat.ltb (snd a) (snd b)).
Fixpoint set_insert (x : f64 * nat) (l : list (f64 * nat)) : list (f64 * nat) :=
  match l with
  | [] => [x]
  | y :: l' => if pair_ltb x y then x :: l else if pair_ltb y x then y :: set_insert x l' else l
  end.

(** the pairs inserted by the loop of lines 31-41, in this order *)
Fixpoint pairs (guess : list f64) (cs : list config) (i : nat) : option (list (f64 * nat)) :=
  match cs with
  | [] => Some []
  | c :: cs' =>
      if c_valid c then
        match displacement guess (c_q c), pairs guess cs' (S i) with
        | Some d, Some l => Some ((d, i) :: l)
        | _, _ => None
        end
      else pairs guess cs' (S i)
  end.
(** the set; [None]: some displacements are NaN and others are not, so that the pairs are not
    ordered and the set is undefined behaviour (pairs whose displacements are all NaN are ordered by
    their indices) *)
Definition the_set (ps : list (f64 * nat)) : option (list (f64 * nat)) :=
  let keys := map fst ps in
  if existsb isnan keys && negb (forallb isnan keys) then None
  else Some (fold_left (fun s p => set_insert p s) ps []).

(** a call: false; joint angles; or undefined behaviour *)
Inductive answer := Refused | Found (q : list f64) | Undefined.

(** ConfigurationSelectorLeastOverallAngularDisplacement.cpp 12-56: findOptimalConfiguration, and
    retrievePose; [last] is lastValid *)
Definition find_least (last : option nat) (cs : list config) (guess : list f64) : answer * option nat :=
  match last with
  | Some i =>
      match nth_error cs i with
      | Some c => (if c_valid c then Found (c_q c) else Refused, last)
      | None => (Undefined, last)
      end
  | None =>
      match pairs guess cs 0 with
      | None => (Undefined, last)
      | Some ps =>
          match the_set ps with
          | None => (Undefined, last)
          | Some [] => (Refused, last)
          | Some ((_, i) :: _) =>
              match nth_error cs i with
              | Some c => (Found (c_q c), Some i)
              | None => (Undefined, last)
              end
          end
      end
  end.

(** ConfigurationSelectorHumanoidGait.cpp 29-64: applyConstraints, with six joints at least *)
Definition applyConstraints (q : list f64) : option bool :=
  match q with
  | q0 :: q1 :: q2 :: q3 :: q4 :: q5 :: _ =>
      Some (negb (fltb half_pi (fabs q0)) && negb (fltb half_pi (fabs q1)) && negb (fltb half_pi (fabs q2)) &&
            negb (fltb q3 fzero) && negb (fltb half_pi (fabs q4)) && negb (fltb half_pi (fabs q5)))
  | _ => None
  end.
(** ConfigurationSelectorHumanoidGait.cpp 18-24 *)
Fixpoint discard (cs : list config) : option (list config) :=
  match cs with
  | [] => Some []
  | c :: cs' =>
      match (if c_valid c then applyConstraints (c_q c) else Some false), discard cs' with
      | Some ok, Some l => Some (Cfg (c_q c) (c_valid c && ok) :: l)
      | _, _ => None
      end
  end.

(** ConfigurationSelectorHumanoidGait.cpp 11-27; [gait] tells the two selectors apart *)
Definition find_optimal (gait : bool) (last : option nat) (cs : list config) (guess : list f64) : answer * option nat :=
  if gait then
    if negb (Nat.eqb (length guess) 6) then (Refused, last)
    else match discard cs with Some l => find_least last l guess | None => (Undefined, last) end
  else find_least last cs guess.

(** ChainIkSolverPos_ST.cpp 36-62: CartToJnt, from the solutions on. [Refused] is E_OUT_OF_LIMITS; the
    angles are given too when the problem reports that the target is not reachable (E_NOT_REACHABLE). *)
Definition cart_to_jnt (gait : bool) (qMin qMax : list f64) (last : option nat) (sols : list (list f64)) (guess : list f64) : answer * option nat :=
  match configs qMin qMax sols with
  | None => (Undefined, last)
  | Some cs => if existsb c_valid cs then find_optimal gait last cs guess else (Refused, last)
  end.

(** one call after another on the same solver: solutions, guess *)
Fixpoint serve (gait : bool) (qMin qMax : list f64) (last : option nat) (calls : list (list (list f64) * list f64)) : list answer :=
  match calls with
  | [] => []
  | (sols, guess) :: calls' =>
      let r := cart_to_jnt gait qMin qMax last sols guess in fst r :: serve gait qMin qMax (snd r) calls'
  end.
