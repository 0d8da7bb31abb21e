(** Witnesses and examples for the controller on doubles. *)
From Coq Require Import List ZArith Reals Lra Lia.
From Flocq Require Import Core IEEE754.BinarySingleNaN.
From Verif Require Import F64 F64Facts Rounded RoundedSpec RoundedFacts RoundedFacts2.
Import ListNotations.
Open Scope R_scope.

(** a robot with one joint, between -90 and 90 degrees, 20 degrees per second at most *)
Definition elbow : joint := Joint (ofZ (-90)) (ofZ 90) fzero (ofZ 20).
Lemma elbow_sane : Forall sane [elbow].
Proof.
  constructor; [|constructor]. unfold sane, elbow. cbn [qMin qMax qdotMin qdotMax].
  destruct (ofZ_ok (-90) ltac:(lia)) as (A & B). destruct (ofZ_ok 90 ltac:(lia)) as (C & D). destruct (ofZ_ok 20 ltac:(lia)) as (E & F).
  rewrite A, B, C, D, E, F. change (val fzero) with 0. repeat split; try reflexivity; try lra; apply Rabs_le; lra.
Qed.

(** a straight line of 10 s: 10 cm along x, from 0.4 m; and a solver that has an answer up to
    0.49999 m (the joint angle is then a hundred times x) *)
Definition outwards : trajectory := Trajectory (ofZ 10) (fun t => [fadd (lit 4 1) (fmul t (lit 1 2)); fzero; fzero; fzero; fzero; fzero]).
Definition reach (x q : list f64) : option (list f64) :=
  match x with
  | a :: _ => if fltb (lit 49999 5) a then None else Some [fmul a (ofZ 100)]
  | [] => None
  end.

Theorem default_end_unchecked : exists invKin js tr q0,
  Forall sane js /\ duration tr = ofZ 10 /\
  doFailFastChecks invKin js [tr] 500 50 q0 = Some true /\
  forall q, invKin (pose_at tr (duration tr)) q = None.
Proof.
  exists reach, [elbow], outwards, [ofZ 40]. split; [exact elbow_sane|]. split; [reflexivity|]. split.
  - vm_compute. reflexivity.
  - intro q. assert (E : forall a, fltb (lit 49999 5) a = true -> forall l, reach (a :: l) q = None) by (intros a H l; unfold reach; now rewrite H).
    apply E. vm_compute. reflexivity.
Qed.

(** the hypotheses of the theorem about samples are met with the default settings *)
Example samples_example : Forall sane [elbow] /\ (0 < 50 <= 1000000)%Z /\ finite (maxDuration [outwards]) = true /\ val (maxDuration [outwards]) <= 1000000000 /\
  doFailFastChecks reach [elbow] [outwards] 500 50 [ofZ 40] = Some true.
Proof.
  split; [exact elbow_sane|]. split; [lia|]. split; [reflexivity|]. split.
  - assert (E : B2SF (maxDuration [outwards]) = SpecFloat.S754_finite false 5629499534213120 (-49)) by (vm_compute; reflexivity).
    unfold val. rewrite <- SF2R_B2SF, E. unfold SF2R, F2R; cbn. lra.
  - vm_compute. reflexivity.
Qed.
(** a trajectory that is refused: the solver has no answer from 0.45 m on *)
Example refused_example : doFailFastChecks (fun x q => match x with a :: _ => if fltb (lit 45 2) a then None else Some q | [] => None end) [elbow] [outwards] 500 50 [ofZ 40] = Some false.
Proof. vm_compute. reflexivity. Qed.

(** 11 degrees at 30 degrees per second: the speed sent is the double after 30 *)
Theorem reference_exceeded : exists refs q qd i r s, joint_ok refs q qd /\
  fst (computeIsocronousSpeeds refs q qd) = true /\
  nth_error refs i = Some r /\ nth_error (snd (computeIsocronousSpeeds refs q qd)) i = Some s /\ val r < val s.
Proof.
  exists [ofZ 30], [fzero], [ofZ 11], 0%nat, (ofZ 30), (nth 0 (snd (computeIsocronousSpeeds [ofZ 30] [fzero] [ofZ 11])) fzero).
  destruct (ofZ_ok 30 ltac:(lia)) as (A & B). destruct (ofZ_ok 11 ltac:(lia)) as (C & D).
  split.
  { intros [|[|i]] r x y Hr Hx Hy; try discriminate. assert (r = ofZ 30) by (cbn [nth_error] in Hr; congruence). assert (x = fzero) by (cbn [nth_error] in Hx; congruence). assert (y = ofZ 11) by (cbn [nth_error] in Hy; congruence). subst r x y. clear Hr Hx Hy.
    unfold ref_speed, angle, apart. rewrite A, B, C, D. change (val fzero) with 0. change (finite fzero) with true. rewrite Rabs_R0.
    repeat split; try reflexivity; try lra; [rewrite Rabs_pos_eq; lra|]. right. rewrite Rabs_pos_eq; lra. }
  split; [vm_compute; reflexivity|]. split; [reflexivity|]. split.
  - apply nth_error_nth'. unfold computeIsocronousSpeeds. cbn [snd distances map length]. lia.
  - apply fltb_val; vm_compute; reflexivity.
Qed.
(** two joints, one of them still: speeds of 30 and 0 *)
Example speeds_example : computeIsocronousSpeeds [ofZ 30; ofZ 10] [fzero; ofZ 5] [ofZ 60; ofZ 5] = (true, [ofZ 30; fzero]).
Proof.
  assert (E : forall a b a' b' : f64, B2SF a = B2SF a' -> B2SF b = B2SF b' -> (true, [a; b]) = (true, [a'; b'])) by (intros a b a' b' A B; now rewrite (B2SF_inj _ _ _ _ A), (B2SF_inj _ _ _ _ B)).
  unfold computeIsocronousSpeeds. cbn [distances map].
  match goal with |- (negb ?x, _) = _ => assert (X : x = false) by (vm_compute; reflexivity); rewrite X end. apply E; vm_compute; reflexivity.
Qed.

(** a twist with a NaN is sent to the motors: a joint at rest in the middle of its range, whose
    velocity is the first component of the twist *)
Theorem nan_sent : exists pinv js q xdot,
  Forall sane js /\ length js = length q /\ checkJointLimits js q = true /\
  twist (fun q x => Some (matrix_times (pinv q) x)) js (Some q) xdot = [fnan].
Proof.
  exists (fun _ => [[ofZ 1; fzero; fzero; fzero; fzero; fzero]]), [elbow], [fzero], [fzero; fzero; fnan; fzero; fzero; fzero].
  split; [exact elbow_sane|]. split; [reflexivity|]. split; [vm_compute; reflexivity|]. vm_compute. reflexivity.
Qed.
(** the same robot, asked for 10 degrees per second, and for 30, which is too fast *)
Example twist_example :
  map (fun v => B2SF v) (twist (fun q x => Some (matrix_times [[ofZ 1; fzero; fzero; fzero; fzero; fzero]] x)) [elbow] (Some [fzero]) [ofZ 10; fzero; fzero; fzero; fzero; fzero]) = [B2SF (ofZ 10)] /\
  map (fun v => B2SF v) (twist (fun q x => Some (matrix_times [[ofZ 1; fzero; fzero; fzero; fzero; fzero]] x)) [elbow] (Some [fzero]) [ofZ 30; fzero; fzero; fzero; fzero; fzero]) = [B2SF fzero].
Proof. split; vm_compute; reflexivity. Qed.
