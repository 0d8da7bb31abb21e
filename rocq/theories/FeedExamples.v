(** Runs of a client that reads the state from a stream that meet the hypotheses of the claims. *)
From Coq Require Import Reals List Bool ZArith Sorted Lra.
From Verif Require Import Kdl Vocab Rpc RpcSpec RpcFacts Feed FeedSpec FeedFacts.
Import ListNotations.
Open Scope R_scope.
Local Notation S := Datatypes.S.

(** two messages arrive and one is lost; the client asks in between, and once more when the last is too old *)
Definition a_day : list (R * f_event) :=
  [(1, Publish); (1.1, Arrive 0); (1.2, AskStat); (2, Publish); (2.1, Lose 0); (3, Publish); (3.2, Arrive 0); (3.3, AskStat); (4, AskStat)].
Example day_true : tells clock /\ timeline 0.5 a_day /\ in_order a_day /\
  exists w, f_play clock true 0.5 a_day f_start = Some w
    /\ f_told w = [(1.2, Some (clock 1)); (3.3, Some (clock 3)); (4, Some (clock 4))]
    /\ Forall (fun x => x <= 0.2) (f_took w).
Proof.
  split; [apply clock_tells|]. split; [split; cbn; repeat (constructor; try lra)|]. split.
  - intros t k I. cbn in I. repeat destruct I as [I|I]; try discriminate; try (now injection I as _ <-); destruct I.
  - eexists. split; [|split].
    + unfold a_day. events. cbn [f_step]. events. rewrite !Rleb_yes by lra. rewrite Rleb_no by lra. reflexivity.
    + cbn. reflexivity.
    + cbn. repeat (constructor; try lra).
Qed.

(** the same without the last question: there is always a recent message *)
Definition fed_day : list (R * f_event) := [(1, Publish); (1.1, Arrive 0); (1.2, AskStat); (2, Publish); (2.1, Arrive 0); (2.2, AskStat)].
Example fed_day_true : timeline 0.5 fed_day /\ in_order fed_day /\ always_fed clock 0.5 fed_day /\
  exists w, f_play clock true 0.5 fed_day f_start = Some w /\ f_told w = [(1.2, Some (clock 1)); (2.2, Some (clock 2))].
Proof.
  split; [split; cbn; repeat (constructor; try lra)|]. split; [|split].
  - intros t k I. cbn in I. repeat destruct I as [I|I]; try discriminate; try (now injection I as _ <-); destruct I.
  - intros es1 t es2 w1 E1 E2. unfold fed_day in E1.
    do 6 (destruct es1 as [|? es1]; cbn in E1; [try discriminate; injection E1 as <- <-;
      revert E2; events; rewrite ?Rleb_yes by (cbn; lra); intros E2; injection E2 as <-; cbn; lra | injection E1 as <- E1]).
    destruct es1; discriminate.
  - eexists. split.
    + unfold fed_day. events. rewrite !Rleb_yes by lra. reflexivity.
    + cbn. reflexivity.
Qed.

(** without a stream *)
Example quiet_day : exists w, f_play clock false 0.5 [(1, AskStat); (2, AskStat)] f_start = Some w
  /\ f_told w = [(1, Some (clock 1)); (2, Some (clock 2))].
Proof. eexists. split; [events; reflexivity | reflexivity]. Qed.
