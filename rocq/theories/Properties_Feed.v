(** The properties about a client that reads the state from a stream.  Nothing but their theorems. *)
From Coq Require Import Reals List Bool ZArith Sorted.
From Verif Require Import Kdl Vocab Rpc Feed FeedSpec FeedFacts FeedExamples.
Import ListNotations.
Open Scope R_scope.

(** C153: whatever happens to the messages, what stat tells was the state of the controller at some instant, that of the call if there is
    no stream; and not older than the timeout and the time that the slowest message took. *)
Theorem C153_true_once : forall state_at stream timeout es, tells state_at -> timeline timeout es ->
  exists w, f_play state_at stream timeout es f_start = Some w /\
  forall a, In a (f_told w) -> exists t0, of_instant state_at a t0 /\ (stream = false -> t0 = fst a)
    /\ forall d, 0 <= d -> Forall (fun x => x <= d) (f_took w) -> fst a - t0 <= timeout + d.
Proof. exact told_true_all. Qed.
Print Assumptions C153_true_once.
Example C153_example : tells clock /\ timeline 0.5 a_day /\ in_order a_day /\
  exists w, f_play clock true 0.5 a_day f_start = Some w
    /\ f_told w = [(1.2, Some (clock 1)); (3.3, Some (clock 3)); (4, Some (clock 4))]
    /\ Forall (fun x => x <= 0.2) (f_took w).
Proof. exact day_true. Qed.

(** C153: the timeout alone does not bound the age: it counts from the arrival. *)
Theorem C153_age_unbounded : forall d, 0 < d -> exists state_at timeout es w t t0, tells state_at /\ timeline timeout es
  /\ f_play state_at true timeout es f_start = Some w /\ In (t, Some (state_at t0)) (f_told w)
  /\ d < t - t0 /\ forall t', state_at t' = state_at t0 -> t' = t0.
Proof. exact old_refuted. Qed.
Print Assumptions C153_age_unbounded.

(** C154: without a stream, successive answers never go back in time. *)
Theorem C154_rpc : forall state_at timeout es w, tells state_at -> timeline timeout es ->
  f_play state_at false timeout es f_start = Some w -> never_back state_at (f_told w).
Proof. exact quiet_never_back. Qed.
Print Assumptions C154_rpc.
Example C154_rpc_example : exists w, f_play clock false 0.5 [(1, AskStat); (2, AskStat)] f_start = Some w
  /\ f_told w = [(1, Some (clock 1)); (2, Some (clock 2))].
Proof. exact quiet_day. Qed.

(** C154: nor with one, if messages arrive in order and there is a recent one at each call. *)
Theorem C154_fed_partial : forall state_at timeout es w, tells state_at -> timeline timeout es -> in_order es ->
  always_fed state_at timeout es -> f_play state_at true timeout es f_start = Some w -> never_back state_at (f_told w).
Proof. intros state_at timeout es w T. exact (fed_never_back state_at timeout T es w). Qed.
Print Assumptions C154_fed_partial.
Example C154_fed_example : timeline 0.5 fed_day /\ in_order fed_day /\ always_fed clock 0.5 fed_day /\
  exists w, f_play clock true 0.5 fed_day f_start = Some w /\ f_told w = [(1.2, Some (clock 1)); (2.2, Some (clock 2))].
Proof. exact fed_day_true. Qed.

(** C154: but they do if a message overtakes another ... *)
Theorem C154_overtaken_refuted : exists state_at timeout es w, tells state_at /\ timeline timeout es /\ always_fed state_at timeout es
  /\ f_play state_at true timeout es f_start = Some w /\ ~ never_back state_at (f_told w).
Proof. exact order_refuted. Qed.
Print Assumptions C154_overtaken_refuted.

(** C154: ... or if a message arrives after the answer to an RPC request that was made after it was sent. *)
Theorem C154_late_refuted : exists state_at timeout es w, tells state_at /\ timeline timeout es /\ in_order es
  /\ f_play state_at true timeout es f_start = Some w /\ ~ never_back state_at (f_told w).
Proof. exact late_refuted. Qed.
Print Assumptions C154_late_refuted.
