(** Which joints turn.  Nothing here models code. *)
From Coq Require Import Reals List Bool.
From Verif Require Import Kdl Selector.
Import ListNotations.
Open Scope R_scope.

(** the joint number i, the fixed ones not counted, is a rotary joint *)
Definition moves (s : segment) : bool := match j_type (s_joint s) with JNone => false | _ => true end.
Definition rotary (s : segment) : Prop := match j_type (s_joint s) with JRotAxis | JRotX | JRotY | JRotZ => True | _ => False end.
Definition turns (c : chain) (i : nat) : Prop := exists s, nth_error (filter moves c) i = Some s /\ rotary s.
(** everything allowed to the joint is more than half a turn away from zero *)
Definition beyond (qMin qMax : list R) (i : nat) : Prop :=
  exists lo hi, nth_error qMin i = Some lo /\ nth_error qMax i = Some hi /\ (PI + kdl_eps < lo \/ hi < - PI - kdl_eps).
