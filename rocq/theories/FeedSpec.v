(** What the claims about a client that reads the state from a stream say.  Nothing here models code. *)
From Coq Require Import Reals List Bool ZArith Sorted.
From Verif Require Import Kdl Vocab Rpc Feed.
Import ListNotations.
Open Scope R_scope.

(** events in the order of time, after the client has waited for the first message *)
Definition timeline (timeout : R) (es : list (R * f_event)) : Prop :=
  StronglySorted Rle (map fst es) /\ Forall (fun t => 0 <= timeout < t) (map fst es).
(** messages arrive in the order in which they were sent, if they do *)
Definition in_order (es : list (R * f_event)) : Prop := forall t k, In (t, Arrive k) es -> k = O.
(** the state that was told at [t] was that of the controller at [t0] *)
Definition of_instant (state_at : R -> reply) (told : R * option reply) (t0 : R) : Prop :=
  t0 <= fst told /\ snd told = Some (state_at t0).
(** the states told are those of instants that do not go back *)
Definition never_back (state_at : R -> reply) (told : list (R * option reply)) : Prop :=
  exists ts, Forall2 (of_instant state_at) told ts /\ StronglySorted Rle ts.
(** the controller tells its state, which is not the code of a failure, or fails *)
Definition tells (state_at : R -> reply) : Prop :=
  forall t, (exists x v s, state_at t = Stated x v s /\ v <> VOCAB_CC_FAILED) \/ state_at t = Failed.
(** at each call to stat, the last message arrived at most [timeout] before *)
Definition always_fed (state_at : R -> reply) (timeout : R) (es : list (R * f_event)) : Prop :=
  forall es1 t es2 w, es = es1 ++ (t, AskStat) :: es2 -> f_play state_at true timeout es1 f_start = Some w ->
    t - arrival (f_fk w) <= timeout.
