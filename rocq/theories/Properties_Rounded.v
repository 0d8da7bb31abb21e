(** The controller on doubles: C157 to C159. *)
From Coq Require Import List ZArith Reals.
From Verif Require Import F64 Rounded RoundedSpec RoundedFacts RoundedFacts2 RoundedExamples.
Import ListNotations.
Open Scope R_scope.

(** C157: a trajectory that the fail-fast check accepts has been solved at samples that begin with
    it, are a step apart and stop less than a step before its end; at each, the angles that are
    numbers are within the limits, and so are the jumps from one to the next *)
Theorem C157_samples : forall invKin js ts ms fuel q0, Forall sane js -> (0 < ms <= 1000000)%Z ->
  finite (maxDuration ts) = true -> val (maxDuration ts) <= 1000000000 ->
  doFailFastChecks invKin js ts fuel ms q0 = Some true ->
  exists l, solved invKin (pose_of ts) q0 l /\ within js q0 l /\ spread (val (timestep ms)) (val (maxDuration ts)) l.
Proof. exact fail_fast_samples. Qed.
Print Assumptions C157_samples.

(** C157: the check comes to an end, whatever the period and the duration *)
Theorem C157_ends : forall invKin js ts ms q0, (0 < ms <= 1000000)%Z ->
  finite (maxDuration ts) = true -> val (maxDuration ts) <= 1000000000 ->
  exists fuel, doFailFastChecks invKin js ts fuel ms q0 <> None.
Proof. exact fail_fast_ends. Qed.
Print Assumptions C157_ends.

(** C157: with the default duration (10 s) and period (50 ms) the end is not checked: the target
    of an accepted trajectory can be out of reach *)
Theorem C157_end_refuted : exists invKin js tr q0,
  Forall sane js /\ duration tr = ofZ 10 /\
  doFailFastChecks invKin js [tr] 500 50 q0 = Some true /\
  forall q, invKin (pose_at tr (duration tr)) q = None.
Proof. exact default_end_unchecked. Qed.
Print Assumptions C157_end_refuted.

(** C158: up to two units in the last place, the speeds of a joint move are at most the reference
    speeds and take all joints to their targets in the same time *)
Theorem C158_rounded : forall refs q qd, length q = length refs -> length qd = length refs -> joint_ok refs q qd ->
  let moves := fst (computeIsocronousSpeeds refs q qd) in
  let speeds := snd (computeIsocronousSpeeds refs q qd) in
  (moves = true <-> exists i r x y, nth_error refs i = Some r /\ nth_error q i = Some x /\ nth_error qd i = Some y /\ 0 < val r /\ val x <> val y) /\
  exists T, 0 <= T /\ forall i r x y, nth_error refs i = Some r -> nth_error q i = Some x -> nth_error qd i = Some y ->
    exists s, nth_error speeds i = Some s /\ finite s = true /\ 0 <= val s /\ (val r <= 0 -> val s = 0) /\
      (0 < val r -> val s <= val r * (1 + / 2 ^ 51) /\ Rabs (val s * T - Rabs (val y - val x)) <= Rabs (val y - val x) * / 2 ^ 51).
Proof. exact speeds_ok. Qed.
Print Assumptions C158_rounded.

(** C158: the reference speed can be exceeded (by one unit in the last place: 11 degrees at 30
    degrees per second) *)
Theorem C158_exceeded_refuted : exists refs q qd i r s, joint_ok refs q qd /\
  fst (computeIsocronousSpeeds refs q qd) = true /\
  nth_error refs i = Some r /\ nth_error (snd (computeIsocronousSpeeds refs q qd)) i = Some s /\ val r < val s.
Proof. exact reference_exceeded. Qed.
Print Assumptions C158_exceeded_refuted.

(** C159: whatever the solver answers, the numbers sent to the motors by a streamed twist are
    within the velocity limits *)
Theorem C159_sent : forall diffInvKin js enc xdot, Forall sane js -> numbers in_speed js (twist diffInvKin js enc xdot).
Proof. exact twist_sent. Qed.
Print Assumptions C159_sent.

(** C159: but a twist with a NaN makes every joint be sent a NaN *)
Theorem C159_nan : forall pinv js q xdot, Forall (fun row => length row = length xdot) (pinv q) -> checkJointLimits js q = true -> In fnan xdot ->
  twist (fun q x => Some (matrix_times (pinv q) x)) js (Some q) xdot = map (fun _ => fnan) (pinv q).
Proof. exact twist_nan. Qed.
Print Assumptions C159_nan.

Theorem C159_nan_refuted : exists pinv js q xdot,
  Forall sane js /\ length js = length q /\ checkJointLimits js q = true /\
  twist (fun q x => Some (matrix_times (pinv q) x)) js (Some q) xdot = [fnan].
Proof. exact nan_sent. Qed.
Print Assumptions C159_nan_refuted.
