(** What the properties of following a line talk about.  Nothing here models code. *)
From Coq Require Import Reals ZArith List Bool.
From Verif Require Import Kdl KdlRot Vocab Bcc BccSpec BccLineSpec Sys SysSpec.
From Verif Require KdlSolver TreeSpec.
Import ListNotations.
Open Scope R_scope.

(** [l] lists things of which each is related to the next one *)
Fixpoint each_next {A} (P : A -> A -> Prop) (l : list A) : Prop :=
  match l with
  | [] => True
  | a :: l' => match l' with [] => True | b :: _ => P a b end /\ each_next P l'
  end.

(** one of the cycles of the history [h], in which the robot is given a velocity *)
Definition driven (h : list entry) (t : list event) : Prop := exists b w a, In (OCycle, t, b) h /\ In (VelocityMove w, a) t.
(** during the cycle [t] the tool is [e] metres away from where it should be according to [move], whose time counts from [start] *)
Definition off (n : nat) (s : KdlSolver.solver) (start : R) (move : R -> frame) (t : list event) (e : R) : Prop :=
  exists q f now, joints_read n t q /\ stands s q f /\ In (Now, now) t /\ e = norm (vsub (fp (move (num now - start))) (fp f)).
(** a robot that does as it is told: between the cycles [t] and [t'], which are [h] seconds apart with [timely h], the tool goes on with
    the velocity that the joints had been given, up to [slack] metres *)
Definition obeys (n : nat) (s : KdlSolver.solver) (timely : R -> Prop) (slack : R) (t t' : list event) : Prop :=
  forall q w a v f now q' f' now', joints_read n t q -> In (VelocityMove w, a) t -> carries s q w v -> stands s q f -> In (Now, now) t ->
    joints_read n t' q' -> stands s q' f' -> In (Now, now') t' ->
    let h := num now' - num now in timely h /\ norm (vsub (fp f') (vadd (fp f) (vscale h (t_vel v)))) <= slack.
(** KDL's velocity solver moves the end of the chain as asked where the robot is in the cycle [t] *)
Definition solvable (d : device) (n : nat) (s : KdlSolver.solver) (t : list event) : Prop :=
  forall q, joints_read n t q -> TreeSpec.faithful_chain (dev_kdl d) s q.
