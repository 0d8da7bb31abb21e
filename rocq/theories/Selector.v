(** Model of the configuration selectors (ScrewTheoryLib, files ConfigurationSelector...).

    A joint array is a list of reals.  [None] stands for undefined behaviour: an access out
    of the bounds of a joint array or of the vector of configurations, or the dereference
    of a null pointer.  Simplification: the library keeps pointers to the caller's joint
    arrays, the model keeps their values, i.e. the caller keeps them alive and unchanged
    between configure() and retrievePose(). *)
From Coq Require Import Reals List Bool.
From Verif Require Import Kdl.
Import ListNotations.
Open Scope R_scope.
Local Notation S := Datatypes.S.

(** ConfigurationSelector.cpp 13-16: checkJointInLimits *)
Definition checkJointInLimits (q qMin qMax : R) : bool :=
  Rleb (qMin - kdl_eps) q && Rleb q (qMax + kdl_eps).

(** ConfigurationSelector.hpp 69-103: Configuration *)
Record config := Cfg { c_q : list R; c_valid : bool }.

(** ConfigurationSelector.cpp 39-53: Configuration::validate; stops at the first joint out
    of limits, reads past the end of the limits if the candidate is longer *)
Fixpoint validate (q qMin qMax : list R) : option bool :=
  match q, qMin, qMax with
  | [], _, _ => Some true
  | x :: q', lo :: qMin', hi :: qMax' =>
      if checkJointInLimits x lo hi then validate q' qMin' qMax' else Some false
  | _ :: _, _, _ => None
  end.

(** state of a selector: limits, configs, optimalConfig (null pointer before the first
    success), lastValid (INVALID_CONFIG is None) *)
Record selector := Sel {
  s_min : list R; s_max : list R;
  s_configs : list config;
  s_optimal : option config;
  s_last : option nat }.

(** ConfigurationSelector.hpp 31-34, 129-132: constructors *)
Definition new_selector (qMin qMax : list R) : selector := Sel qMin qMax [] None None.

Fixpoint build_configs (qMin qMax : list R) (sols : list (list R)) : option (list config) :=
  match sols with
  | [] => Some []
  | q :: sols' =>
      match validate q qMin qMax, build_configs qMin qMax sols' with
      | Some v, Some l => Some (Cfg q v :: l)
      | _, _ => None
      end
  end.

(** ConfigurationSelector.cpp 21-35: configure *)
Definition configure (s : selector) (sols : list (list R)) : option (bool * selector) :=
  match build_configs (s_min s) (s_max s) sols with
  | Some l => Some (existsb c_valid l, Sel (s_min s) (s_max s) l (s_optimal s) (s_last s))
  | None => None
  end.

(** ConfigurationSelectorLeastOverallAngularDisplacement.cpp 58-72 (getDiffs) and the
    std::accumulate of line 37: one term per joint of the guess *)
Fixpoint sum_diffs (guess q : list R) : option R :=
  match guess, q with
  | [], _ => Some 0
  | g :: guess', x :: q' =>
      match sum_diffs guess' q' with Some r => Some (Rabs (g - x) + r) | None => None end
  | _ :: _, [] => None
  end.

(** std::set<std::pair<double,int>>: lexicographic order, no duplicates *)
Definition pair_ltb (a b : R * nat) : bool :=
  Rltb (fst a) (fst b) || (negb (Rltb (fst b) (fst a)) && Nat.ltb (snd a) (snd b)).
Fixpoint set_insert (x : R * nat) (l : list (R * nat)) : list (R * nat) :=
  match l with
  | [] => [x]
  | y :: l' => if pair_ltb x y then x :: l else if pair_ltb y x then y :: set_insert x l' else l
  end.

(** the loop of lines 29-41 *)
Fixpoint collect (guess : list R) (cs : list config) (i : nat) (acc : list (R * nat)) : option (list (R * nat)) :=
  match cs with
  | [] => Some acc
  | c :: cs' =>
      if c_valid c then
        match sum_diffs guess (c_q c) with
        | Some r => collect guess cs' (S i) (set_insert (r, i) acc)
        | None => None
        end
      else collect guess cs' (S i) acc
  end.

(** ConfigurationSelectorLeastOverallAngularDisplacement.cpp 12-56: findOptimalConfiguration *)
Definition find_least (s : selector) (guess : list R) : option (bool * selector) :=
  match s_last s with
  | Some i =>
      match nth_error (s_configs s) i with
      | Some c =>
          if c_valid c then Some (true, Sel (s_min s) (s_max s) (s_configs s) (Some c) (s_last s))
          else Some (false, s)
      | None => None
      end
  | None =>
      match collect guess (s_configs s) O [] with
      | None => None
      | Some [] => Some (false, s)
      | Some ((_, i) :: _) =>
          match nth_error (s_configs s) i with
          | Some c => Some (true, Sel (s_min s) (s_max s) (s_configs s) (Some c) (Some i))
          | None => None
          end
      end
  end.

(** ConfigurationSelectorHumanoidGait.cpp 29-64: applyConstraints; [None] if fewer than six
    joints are read (the code stops at the first violated constraint) *)
Definition applyConstraints (q : list R) : option bool :=
  match q with
  | q0 :: t0 =>
    if Rltb (PI / 2) (Rabs q0) then Some false else
    match t0 with
    | q1 :: t1 =>
      if Rltb (PI / 2) (Rabs q1) then Some false else
      match t1 with
      | q2 :: t2 =>
        if Rltb (PI / 2) (Rabs q2) then Some false else
        match t2 with
        | q3 :: t3 =>
          if Rltb q3 0 then Some false else
          match t3 with
          | q4 :: t4 =>
            if Rltb (PI / 2) (Rabs q4) then Some false else
            match t4 with
            | q5 :: _ => if Rltb (PI / 2) (Rabs q5) then Some false else Some true
            | [] => None
            end
          | [] => None
          end
        | [] => None
        end
      | [] => None
      end
    | [] => None
    end
  | [] => None
  end.

(** ConfigurationSelectorHumanoidGait.cpp 18-24: invalidate unnatural configurations *)
Fixpoint discard (cs : list config) : option (list config) :=
  match cs with
  | [] => Some []
  | c :: cs' =>
      match (if c_valid c then applyConstraints (c_q c) else Some false), discard cs' with
      | Some ok, Some l => Some (Cfg (c_q c) (c_valid c && ok) :: l)
      | _, _ => None
      end
  end.

(** ConfigurationSelectorHumanoidGait.cpp 11-27: findOptimalConfiguration *)
Definition find_gait (s : selector) (guess : list R) : option (bool * selector) :=
  if negb (Nat.eqb (length guess) 6) then Some (false, s)
  else match discard (s_configs s) with
       | Some l => find_least (Sel (s_min s) (s_max s) l (s_optimal s) (s_last s)) guess
       | None => None
       end.

(** ConfigurationSelector.hpp 60-63: retrievePose *)
Definition retrievePose (s : selector) : option (list R) := option_map c_q (s_optimal s).

(** any history of calls on one instance *)
Inductive sel_op := Configure (sols : list (list R)) | Find (guess : list R).
Definition sel_step (find : selector -> list R -> option (bool * selector)) (s : selector) (o : sel_op) : option (bool * selector) :=
  match o with Configure sols => configure s sols | Find g => find s g end.
Fixpoint sel_run (find : selector -> list R -> option (bool * selector)) (s : selector) (os : list sel_op) : option selector :=
  match os with
  | [] => Some s
  | o :: os' => match sel_step find s o with Some (_, s') => sel_run find s' os' | None => None end
  end.

(** ** Specification vocabulary *)
(** every joint within its limits, up to the tolerance *)
Definition within (qMin qMax q : list R) : Prop :=
  length q = length qMin /\ length q = length qMax /\
  forall i x lo hi, nth_error q i = Some x -> nth_error qMin i = Some lo -> nth_error qMax i = Some hi ->
    lo - kdl_eps <= x <= hi + kdl_eps.
(** sum of absolute joint displacements *)
Definition displacement (a b : list R) : R :=
  fold_right Rplus 0 (map (fun xy => Rabs (fst xy - snd xy)) (combine a b)).
(** the walking posture: hip, ankle joints at most a quarter turn, knee not inverted *)
Definition gait_posture (q : list R) : Prop :=
  exists q0 q1 q2 q3 q4 q5, q = [q0; q1; q2; q3; q4; q5] /\
    Rabs q0 <= PI / 2 /\ Rabs q1 <= PI / 2 /\ Rabs q2 <= PI / 2 /\ 0 <= q3 /\ Rabs q4 <= PI / 2 /\ Rabs q5 <= PI / 2.
