(** Model of the example exampleScrewTheoryTrajectory (examples/cpp): a robot arm is driven along a line with the screw theory
    library.

    The robot is a parameter: the joint values it tells, the limits it has and whether it accepts the control mode.  Logging
    and the connection are not modelled, nor is the clock: the instants of the cycles are given. *)
From Coq Require Import Reals List Bool Arith.
From Verif Require Import Kdl KdlRot KdlTraj Screw Subproblems IkProblem Selector Builder KinRep.
Import ListNotations.
Open Scope R_scope.

(** exampleScrewTheoryTrajectory.cpp 72-89: makeTeoLeftArmKinematics *)
Definition arm_base : frame := F (mm (RotY (- PI / 2)) (RotX (- PI / 2))) (V 0 (34692 / 100000) (1932 / 10000 + 305 / 1000)).
Definition arm_tool : frame := F mid (V (- (63401 / 100000)) 0 0).
Definition left_arm : poe :=
  let add a o p := append_exp p (mk_exp ROTATION a o) fid in
  let p := mk_poe arm_tool in
  let p := add (V 0 0 1) vzero p in
  let p := add (V 0 1 0) vzero p in
  let p := add (V 1 0 0) vzero p in
  let p := add (V 0 0 1) (V (- (32901 / 100000)) 0 0) p in
  let p := add (V 1 0 0) (V (- (32901 / 100000)) 0 0) p in
  let p := add (V 0 0 1) (V (- (54401 / 100000)) 0 0) p in
  changeBaseFrame p arm_base.

(** 193-199: the line and its timing; [None]: not a number *)
Definition goal (start : frame) : frame := F (fM start) (vadd (fp start) (V (15 / 100) (1 / 10) (1 / 10))).
Definition along (start : frame) (maxVel duration t : R) : option frame :=
  let path := path_line start (goal start) (1 / 10) in
  option_map (fun profile => path_pos path (trap_pos profile t)) (trap_duration maxVel (2 / 10) 0 (pt_len path) duration).

(** TrajectoryThread.hpp 40-46: data members; the axes are those of the robot *)
Record follower := Fo { fo_poe : poe; fo_steps : list sub; fo_rev : bool; fo_sel : selector; fo_start : frame; fo_axes : nat }.

(** 178-188: the limits of the joints *)
Fixpoint all_limits (limits : nat -> option (R * R)) (js : list nat) : option (list R * list R) :=
  match js with
  | [] => Some ([], [])
  | j :: js' =>
      match limits j, all_limits limits js' with
      | Some (lo, hi), Some (los, his) => Some (lo :: los, hi :: his)
      | _, _ => None
      end
  end.

(** 143-209: from the joint values of the robot to the thread.  [Returns None]: the program ends with a message.
    [Undefined]: the program reads beyond the joint values (156-159, fewer axes than the arm model), or the robot reads one mode
    per axis from an array with one mode per joint of the model (201-203). *)
Definition prepare (fuel : nat) (draws q : list R) (limits : nat -> option (R * R)) (mode_set : bool) : outcome (option follower) :=
  let n := length (exps left_arm) in
  if Nat.ltb (length q) n then Undefined
  else
    match evaluate left_arm (map degToRad (firstn n q)) with
    | None => Returns None
    | Some start =>
        match build fuel draws left_arm with
        | Running => Running
        | Undefined => Undefined
        | Returns None => Returns None
        | Returns (Some (p, ss, reversed)) =>
            match all_limits limits (seq 0 n) with
            | None => Returns None
            | Some (qMin, qMax) =>
                if Nat.ltb n (length q) then Undefined
                else if mode_set then Returns (Some (Fo p ss reversed (new_selector qMin qMax) start (length q)))
                else Returns None
            end
        end
    end.

Definition with_sel (f : follower) (s : selector) : follower := Fo (fo_poe f) (fo_steps f) (fo_rev f) s (fo_start f) (fo_axes f).

(** what a cycle leaves: whether it warned, and the joint values sent *)
Record report := Rep { warned : bool; sent : option (list R) }.

(** TrajectoryThread.cpp 33-81: run.  [reading]: the joint values of the robot, [None] if it does not tell them.  [None] in the result:
    the guess, or what is sent, is read beyond its end. *)
Definition cycle (maxVel duration : R) (f : follower) (t : R) (reading : option (list R)) : option (report * follower) :=
  match along (fo_start f) maxVel duration t with
  | None => None
  | Some target =>
      match ik_solve (fo_poe f) (map sub_step (fo_steps f)) (fo_rev f) target with
      | None => None
      | Some (exact, solutions) =>
          match configure (fo_sel f) solutions with
          | None => None
          | Some (false, s) => Some (Rep (negb exact) None, with_sel f s)
          | Some (true, s) =>
              match reading with
              | None => Some (Rep (negb exact) None, with_sel f s)
              | Some q =>
                  match find_least s (map degToRad q) with
                  | None => None
                  | Some (false, s') => Some (Rep (negb exact) None, with_sel f s')
                  | Some (true, s') =>
                      match retrievePose s' with
                      | None => None
                      | Some x =>
                          if Nat.ltb (length x) (fo_axes f) then None
                          else Some (Rep (negb exact) (Some (map radToDeg x)), with_sel f s')
                      end
                  end
              end
          end
      end
  end.

(** the cycles of a run *)
Fixpoint cycles (maxVel duration : R) (f : follower) (ins : list (R * option (list R))) : option (list (R * report)) :=
  match ins with
  | [] => Some []
  | (t, reading) :: ins' =>
      match cycle maxVel duration f t reading with
      | None => None
      | Some (r, f') => option_map (cons (t, r)) (cycles maxVel duration f' ins')
      end
  end.
