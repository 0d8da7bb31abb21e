(** What the properties of the solver of ASIBOT used by several threads say.  Nothing here models code. *)
From Coq Require Import Reals List Bool Arith.
From Verif Require Import Kdl KdlRot Trig KinRep Asibot AsibotRace.
Import ListNotations.
Open Scope R_scope.
Local Notation length := List.length.

(** one thread: the solver after a change, and after several *)
Definition a_changed (s : asibot) (o : a_change) : option asibot :=
  match o with AAppend x => appendLink s x | ARestore => Some (restoreOriginalChain s) end.
Fixpoint a_after (s : asibot) (os : list a_change) : option asibot :=
  match os with
  | [] => Some s
  | o :: os' => match a_changed s o with Some s' => a_after s' os' | None => None end
  end.
(** the questions that the solver answers as at an instant: the pose, and the joints for a pose in the frame of the base *)
Inductive a_question := APose (q : list R) | AJoints (xd guess : list R).
Definition a_alone (svd : mat -> vec) (s : asibot) (x : a_question) : option (option (list R)) :=
  match x with APose q => option_map Some (fwdKin svd s q) | AJoints xd guess => invKin svd s xd guess BASE_FRAME end.
Definition a_code (svd : mat -> vec) (s : asibot) (x : a_question) : a_prog :=
  match x with APose q => a_fwdKin svd s q | AJoints xd guess => a_invKin svd s xd guess BASE_FRAME end.
(** how many of the changes [os] of the only thread are made *)
Definition made (os : list a_change) (w : a_world) : nat := length os - length (snd (nth 0 (a_threads w) (None, []))).
Definition a_changing (t : a_turn) : Prop := match t with AAsker => False | AChanger _ => True end.
(** no change is left *)
Definition a_all_made (w : a_world) : Prop := Forall (fun t => t = (None, [])) (a_threads w).
