(** What the properties of the keys and the streaming thread at once say.  Nothing here models code. *)
From Coq Require Import Reals List Bool String Ascii ZArith.
From Verif Require Import Kdl KdlRot KinRep Vocab Keyboard KeyboardSpec KeyRace.
Import ListNotations.
Open Scope R_scope.
Local Notation length := List.length.

(** keys that are pressed *)
Definition pressed (t : k_turn) (P : ascii -> Prop) : Prop := match t with TKey k _ => P k | _ => True end.
(** no key of the Cartesian axes; not the key that swaps the frames *)
Definition no_axis (ts : list k_turn) : Prop := Forall (fun t => pressed t (fun k => ~ In k (chars "asdfghzxcvbn"))) ts.
Definition no_swap (ts : list k_turn) : Prop := Forall (fun t => pressed t (fun k => k <> "m"%char)) ts.
(** the poses that the thread has sent, among these calls *)
Definition streamed (l : list (bool * k_cmd)) : list k_cmd := map snd (filter fst l).
(** the thread, had it run at one instant of the turns [ts], would have sent [x] *)
Definition run_at_once (c : k_cfg) (ts : list k_turn) (w : k_world) (x : k_cmd) : Prop :=
  exists ts1 now ts2 w1, ts = ts1 ++ TThread now :: ts2 /\ kw_play c ts1 w = Some w1 /\ thread_run (kw_st w1) now = Some [x].
