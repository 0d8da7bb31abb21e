(** Specification vocabulary of haarDetectionController. *)
From Coq Require Import Reals List ZArith.
From Verif Require Import Kdl Vocab Haar.
Import ListNotations.
Open Scope R_scope.

(** the motion in force after some commands, as the Cartesian controller sees it: the last twist, unless it was stopped since *)
Definition in_force (cs : list h_cmd) : option (list R) :=
  fold_left (fun m c => match c with HTwist v => Some v | HStop => None | _ => m end) cs None.
(** the last reading made of two numbers *)
Definition last_reading (evs : list h_event) : option (R * R) :=
  fold_left (fun m e => match e with HRead [x; y] => Some (x, y) | _ => m end) evs None.
(** a target is seen during the run *)
Definition target_seen (evs : list h_event) : Prop := exists n, In (HUpdate true n) evs.
