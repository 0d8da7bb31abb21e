(** Model of the trajectory generators of AsibotSolver/TrajGen.hpp.

    Real numbers for doubles; [None] as the result of [configure] is a division by zero,
    after which the members are infinite or not numbers.  dump (log output) is not modelled. *)
From Coq Require Import Reals Bool.
From Verif Require Import Kdl Trig.
Open Scope R_scope.

(** TrajGen.hpp 26-38, 45-103, 110-215: the two classes derived from Traj, with their members *)
Inductive traj :=
| OrderOne (T m b : R)
| OrderThree (a3 a2 a1 a0 T : R).
Inductive order := First | Third.

(** TrajGen.hpp 50-56 and 118-126: configure without velocities.  The answer is always true *)
Definition configure (o : order) (xi xf T : R) : option traj :=
  match o with
  | First => match fdiv (xf - xi) T with Some m => Some (OrderOne T m xi) | None => None end
  | Third =>
      match fdiv (2 * (xi - xf)) (T * T * T), fdiv (xf - xi) (T * T) with
      | Some a3, Some q => Some (OrderThree a3 (q - a3 * T) 0 xi T)
      | _, _ => None
      end
  end.
(** TrajGen.hpp 58-61 and 131-139: configure with velocities; the answer and the members,
    where [None] as members of a first-order trajectory stands for those it had before *)
Definition configure_velocities (o : order) (xi xf xdoti xdotf T : R) : option (bool * option traj) :=
  match o with
  | First => Some (false, None)
  | Third =>
      match fdiv (2 * (xi - xf)) (T * T * T), fdiv (xdotf + xdoti) (T * T), fdiv (xf - xi - xdoti * T) (T * T) with
      | Some a, Some b, Some q => Some (true, Some (OrderThree (a + b) (q - (a + b) * T) xdoti xi T))
      | _, _, _ => None
      end
  end.

(** TrajGen.hpp 63-66, 144-151: get *)
Definition get (t : traj) (ti : R) : R :=
  match t with
  | OrderOne T m b => b + m * ti
  | OrderThree a3 a2 a1 a0 T =>
      if Rltb T ti then a3 * T * T * T + a2 * T * T + a1 * T + a0
      else a3 * ti * ti * ti + a2 * ti * ti + a1 * ti + a0
  end.
(** TrajGen.hpp 68-71, 156-163: getdot *)
Definition getdot (t : traj) (ti : R) : R :=
  match t with
  | OrderOne T m b => m
  | OrderThree a3 a2 a1 a0 T =>
      if Rltb T ti then 3 * a3 * T * T + 2 * a2 * T + a1 else 3 * a3 * ti * ti + 2 * a2 * ti + a1
  end.
(** TrajGen.hpp 73-76, 168-175: getdotdot *)
Definition getdotdot (t : traj) (ti : R) : R :=
  match t with
  | OrderOne T m b => 0
  | OrderThree a3 a2 a1 a0 T => if Rltb T ti then 6 * a3 * T + 2 * a2 else 6 * a3 * ti + 2 * a2
  end.
(** TrajGen.hpp 88-91, 196-199: getT *)
Definition getT (t : traj) : R := match t with OrderOne T _ _ => T | OrderThree _ _ _ _ T => T end.
(** TrajGen.hpp 78-81, 180-183: maxVelBelow *)
Definition maxVelBelow (t : traj) (v : R) : bool :=
  match t with OrderOne T m b => Rltb m v | OrderThree _ _ _ _ T => Rltb (getdot t (T / 2)) v end.
(** TrajGen.hpp 83-86, 188-191: maxAccBelow *)
Definition maxAccBelow (t : traj) (a : R) : bool :=
  match t with OrderOne T m b => Rltb 0 a | OrderThree _ _ _ _ T => Rltb (getdotdot t (T / 2)) a end.
