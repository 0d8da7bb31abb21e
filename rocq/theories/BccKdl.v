(** What KDL and KdlVectorConverter answer when the Cartesian controller samples its trajectories. *)
From Coq Require Import Reals ZArith List Bool.
From Verif Require KinRep.
From Verif Require Import Kdl KdlRot Bcc KdlTraj.
Import ListNotations.
Local Notation vectorToFrame := KinRep.vectorToFrame.
Local Notation frameToVector := KinRep.frameToVector.
Local Notation vectorToTwist := KinRep.vectorToTwist.
Local Notation twistToVector := KinRep.twistToVector.
Import ListNotations.
Open Scope R_scope.

(** ICartesianControlImpl.cpp 216-225 and 274-284: the two poses, or the pose and the twist, are given as six numbers each;
    PeriodicThreadImpl.cpp 134-141, 211-213, 264-271 and BasicCartesianControl.cpp 147-150: the pose and the velocity are
    turned into six numbers.  Nothing is said about what KDL gives back when the arithmetic is not finite. *)
Definition as_kdl (e : event) : Prop :=
  match e with
  | (TrajDuration (Line f g d), a) => forall T, line_seconds (vectorToFrame f) (vectorToFrame g) d = Some T -> num a = T
  | (TrajPos (Line f g d) t, a) => forall h, line_pos (vectorToFrame f) (vectorToFrame g) d t = Some h -> vals a = frameToVector h
  | (TrajVel (Line f g d) t, a) => forall w, line_vel (vectorToFrame f) (vectorToFrame g) d t = Some w -> vals a = twistToVector w
  | (TrajPos (Along f w) t, a) => vals a = frameToVector (along_pos (vectorToFrame f) (vectorToTwist w) t)
  | (TrajVel (Along f w) t, a) => vals a = twistToVector (along_vel (vectorToFrame f) (vectorToTwist w) t)
  | _ => True
  end.
