(** Proofs about the small mathematical library. *)
From Coq Require Import Reals List Bool Arith Lia Lra.
From Verif Require Import Kdl KdlFacts Trig TrigFacts KinRep TinyMath.
Import ListNotations.
Open Scope R_scope.
Local Notation S := Datatypes.S.
Arguments IZR : simpl never.

Lemma rotX_is : forall d, rotX d = Some (rows3 (RotX (degrees d))).
Proof. reflexivity. Qed.
Lemma rotY_is : forall d, rotY d = Some (rows3 (RotY (degrees d))).
Proof. reflexivity. Qed.
Lemma rotZ_is : forall d, rotZ d = Some (rows3 (RotZ (degrees d))).
Proof. reflexivity. Qed.
Lemma ymul3 : forall a b, ymul (rows3 a) (rows3 b) = rows3 (mm a b).
Proof. intros [] []. unfold ymul, rows3, mm, rowcol, column; cbn. repeat (apply f_equal2; [repeat (apply f_equal2; [ring|]); reflexivity|]). reflexivity. Qed.
Lemma update_is : forall a b c l m p, xUpdateH (a :: b :: c :: l) (homogeneous m p) = Some (homogeneous m (V a b c)).
Proof. reflexivity. Qed.
Theorem zyz_is : forall x y z tl a b c tl', eulerZYZtoH (x :: y :: z :: tl) (a :: b :: c :: tl') =
  Some (homogeneous (mm (RotZ (degrees a)) (mm (RotY (degrees b)) (RotZ (degrees c)))) (V x y z)).
Proof.
  intros. unfold eulerZYZtoH. cbn [nth_error]. rewrite !rotZ_is, rotY_is, !ymul3, <- mm_assoc.
  set (m := mm _ _). clearbody m. destruct m. reflexivity.
Qed.
Theorem yz_is : forall x y z tl a b tl', eulerYZtoH (x :: y :: z :: tl) (a :: b :: tl') =
  Some (homogeneous (mm (RotZ (atan2 y x)) (mm (RotY (degrees a)) (RotZ (degrees b)))) (V x y z)).
Proof.
  intros. unfold eulerYZtoH. cbn [nth_error]. rewrite zyz_is. replace (degrees (toDeg (atan2 y x))) with (atan2 y x); [reflexivity|].
  unfold degrees, toDeg. field. pose proof PI_RGT_0; lra.
Qed.
Theorem axis_is : forall x y z tl a b c t tl', axisAngleToH (x :: y :: z :: tl) (a :: b :: c :: t :: tl') =
  Some (homogeneous (Rot2 (V a b c) t) (V x y z)).
Proof.
  intros. unfold axisAngleToH. cbn. unfold homogeneous, Rot2; cbn [vx vy vz m00 m01 m02 m10 m11 m12 m20 m21 m22]. apply f_equal.
  repeat (apply f_equal2; [repeat (apply f_equal2; [ring|]); reflexivity|]). reflexivity.
Qed.
Theorem short_inputs : (forall x o, (length x < 3)%nat -> (3 <= length o)%nat -> eulerZYZtoH x o = None) /\ (forall x o, (length o < 3)%nat -> eulerZYZtoH x o = None).
Proof.
  split.
  - intros x o L M. destruct o as [|a [|b [|c o]]]; cbn in M; try lia. unfold eulerZYZtoH. cbn [nth_error].
    rewrite !rotZ_is, rotY_is. destruct (put _ 3 3 1); auto. destruct x as [|p [|q [|r x]]]; cbn in L; try lia; reflexivity.
  - intros x o L. destruct o as [|a [|b [|c o]]]; cbn in L; try lia; reflexivity.
Qed.

(** the angle is taken in radians although it is documented in degrees *)
Lemma Rot2_z : forall t, Rot2 (V 0 0 1) t = RotZ t.
Proof. intros. unfold Rot2, RotZ; cbn. f_equal; ring. Qed.
Theorem axis_degrees_refuted : axisAngleToH [0; 0; 0] [0; 0; 1; PI] <> Some (homogeneous (Rot2 (V 0 0 1) (degrees PI)) vzero).
Proof.
  rewrite axis_is, !Rot2_z. unfold homogeneous, RotZ; cbn [vx vy vz m00 m01 m02 m10 m11 m12 m20 m21 m22].
  intro H. assert (E : cos PI = cos (degrees PI)) by congruence. rewrite cos_PI in E.
  pose proof PI_RGT_0. pose proof PI_4.
  assert (0 < cos (degrees PI)); [|lra]. apply cos_gt_0; unfold degrees; nra.
Qed.
Theorem axis_rigid : forall x y z tl a b c t tl', unit (V a b c) ->
  exists m, axisAngleToH (x :: y :: z :: tl) (a :: b :: c :: t :: tl') = Some (homogeneous m (V x y z)) /\ rotation_matrix m /\ mv m (V a b c) = V a b c.
Proof. intros. exists (Rot2 (V a b c) t). split; [apply axis_is|]. split; [apply Rot2_rot; auto|]. apply Rot2_axis; auto. Qed.
