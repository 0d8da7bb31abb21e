(** Witnesses and examples for the choice among solutions on doubles. *)
From Coq Require Import List ZArith Reals Lia Lra.
From Flocq Require Import Core IEEE754.BinarySingleNaN.
From Verif Require Import F64 F64Facts RoundedFacts SelectorF64 SelectorF64Spec SelectorF64Facts.
Import ListNotations.
Open Scope R_scope.

Lemma limit_ofZ : forall n, (Z.abs n <= 1000000)%Z -> limit (ofZ n).
Proof. intros n H. destruct (ofZ_ok n ltac:(lia)) as (F & V). split; [exact F|]. rewrite V, <- abs_IZR. now apply IZR_le. Qed.

(** two joints between -2 and 2 rad; a solution that is not a number, two that are, one out of limits *)
Definition lo2 : list f64 := [ofZ (-2); ofZ (-2)].
Definition hi2 : list f64 := [ofZ 2; ofZ 2].
Definition sols2 : list (list f64) := [[fnan; ofZ 1]; [ofZ 1; ofZ 1]; [ofZ 0; ofZ 1]; [ofZ 0; ofZ 3]].
Example served_example : Forall limit lo2 /\ Forall limit hi2 /\ length lo2 = length hi2 /\ Forall (proper 2 4) [(sols2, [ofZ 0; ofZ 0]); (sols2, [fnan; ofZ 0])] /\
  serve false lo2 hi2 None [(sols2, [ofZ 0; ofZ 0]); (sols2, [fnan; ofZ 0])] = [Found [ofZ 0; ofZ 1]; Found [ofZ 0; ofZ 1]].
Proof.
  split; [repeat (constructor; [apply limit_ofZ; lia|]); constructor|]. split; [repeat (constructor; [apply limit_ofZ; lia|]); constructor|]. split; [reflexivity|]. split.
  - repeat (constructor; [repeat split; cbn; intros q H; repeat (destruct H as [<-|H]; [reflexivity|]); destruct H|]). constructor.
  - reflexivity.
Qed.
Example first_example : exists q', In q' sols2 /\ strictly_inside lo2 hi2 q'.
Proof.
  exists [ofZ 1; ofZ 1]. split; [cbn; auto|]. destruct (ofZ_ok 1 ltac:(lia)) as (F1 & V1). destruct (ofZ_ok 2 ltac:(lia)) as (_ & V2). destruct (ofZ_ok (-2) ltac:(lia)) as (_ & V3).
  intros [|[|i]] v l h Hv Hl Hh; try (destruct i; discriminate);
    (assert (v = ofZ 1) by (cbn [nth_error] in Hv; congruence); assert (l = ofZ (-2)) by (cbn [nth_error lo2] in Hl; congruence); assert (h = ofZ 2) by (cbn [nth_error hi2] in Hh; congruence); subst v l h; rewrite V1, V2, V3; split; [exact F1|lra]).
Qed.
(** the walking selector: the knee must not be inverted *)
Definition lo6 : list f64 := repeat (ofZ (-2)) 6.
Definition hi6 : list f64 := repeat (ofZ 2) 6.
Example gait_example : serve true lo6 hi6 None [([[ofZ 0; ofZ 0; ofZ 0; ofZ (-1); ofZ 0; ofZ 0]; [ofZ 0; ofZ 0; ofZ 0; ofZ 1; ofZ 0; ofZ 0]], repeat (ofZ 0) 6)] = [Found [ofZ 0; ofZ 0; ofZ 0; ofZ 1; ofZ 0; ofZ 0]].
Proof. reflexivity. Qed.

(** two solutions at displacements 1 + 2^-60 and 1: the sums are both 1, and the first is taken *)
Definition hair : f64 := fdiv (ofZ 1) (ofZ (2 ^ 60)).
Theorem not_the_nearest : exists lo hi sols guess q last q', Forall moderate lo /\ Forall moderate hi /\ Forall moderate guess /\
  cart_to_jnt false lo hi None sols guess = (Found q, last) /\ In q' sols /\ strictly_inside lo hi q' /\ displacement_of guess q' < displacement_of guess q.
Proof.
  destruct (ofZ_ok 1 ltac:(lia)) as (F1 & V1). destruct (ofZ_ok 2 ltac:(lia)) as (F2 & V2). destruct (ofZ_ok (-2) ltac:(lia)) as (F3 & V3).
  assert (M0 : moderate fzero) by (split; [reflexivity|change (val fzero) with 0; rewrite Rabs_R0; lra]).
  assert (M2 : moderate (ofZ 2)) by (split; [exact F2|rewrite V2, Rabs_pos_eq; lra]). assert (M3 : moderate (ofZ (-2))) by (split; [exact F3|rewrite V3, Rabs_left; lra]).
  assert (H : 0 < val hair) by (assert (E : B2SF hair = SpecFloat.S754_finite false 4503599627370496 (-112)) by (vm_compute; reflexivity); unfold val; rewrite <- SF2R_B2SF, E; unfold SF2R, F2R; cbn; lra).
  exists lo2, hi2, [[ofZ 1; hair]; [ofZ 1; fzero]], [fzero; fzero], [ofZ 1; hair], (Some 0%nat), [ofZ 1; fzero].
  split; [repeat (constructor; [assumption|]); constructor|]. split; [repeat (constructor; [assumption|]); constructor|]. split; [repeat (constructor; [assumption|]); constructor|].
  split; [reflexivity|]. split; [cbn; auto|]. split.
  - intros [|[|i]] v l h Hv Hl Hh; try (destruct i; discriminate); [assert (v = ofZ 1) by (cbn [nth_error] in Hv; congruence)|assert (v = fzero) by (cbn [nth_error] in Hv; congruence)];
      assert (l = ofZ (-2)) by (cbn [nth_error lo2] in Hl; congruence); assert (h = ofZ 2) by (cbn [nth_error hi2] in Hh; congruence); subst v l h; rewrite V2, V3.
    + rewrite V1. split; [exact F1|lra].
    + change (val fzero) with 0. split; [reflexivity|lra].
  - cbn [displacement_of]. change (val fzero) with 0. replace (0 - 0) with 0 by ring. rewrite Rabs_R0. replace (0 - val hair) with (- val hair) by ring. rewrite Rabs_Ropp, (Rabs_pos_eq (val hair)) by lra. lra.
Qed.
