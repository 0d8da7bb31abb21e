(** Proofs about KDL's trajectories along a twist. *)
From Coq Require Import Reals List Bool Lra.
From Verif Require Import Kdl KdlFacts KdlRot KdlRotFacts KinRepSpec AsibotSpec KdlTraj LineSpec KeyboardFacts7 LineFacts2.
Open Scope R_scope.

Lemma seen_turn_axis : forall R0 w, rotation_matrix R0 -> w = vzero \/ (norm w < PI /\ kdl_eps <= sin (norm w) /\ kdl_eps <= norm w) ->
  exists a, GetRotAngle (mm (mT R0) (mm (Rot w (norm w)) R0)) = (a, norm w) /\
  (forall t, mm R0 (Rot2 a (t * norm w)) = mm (Rot w (t * norm w)) R0) /\ mv R0 (vscale (norm w) a) = w.
Proof.
  intros R0 w RM [->|(B & S & L)].
  - exists (V 0 0 1). rewrite norm_of_zero. unfold Rot. split; [|split].
    + rewrite Rot2_zero, mm_id_l, (rot_TM R0 RM). apply GetRotAngle_id.
    + intros t. rewrite Rmult_0_r, !Rot2_zero, mm_id_l, mm_id_r. reflexivity.
    + unfold vscale, mv, vzero. cbn. f_equal; ring.
  - pose proof kdl_eps_pos. exists (mv (mT R0) (normalize w)). assert (rotation_matrix (mT R0)) as RT by (apply rot_mT; exact RM). unfold Rot.
    assert (forall t, Rot2 (mv (mT R0) (normalize w)) t = mm (mT R0) (mm (Rot2 (normalize w) t) R0)) as C.
    { intros t. rewrite Rot2_conj by exact RT. rewrite mT_mT. reflexivity. }
    split; [|split].
    + rewrite <- C. apply GetRotAngle_Rot2; auto; [|lra]. unfold unit. rewrite dot_rot by exact RT. apply normalize_unit.
    + intros t. rewrite C, <- mm_assoc, (rot_MT R0 RM), mm_id_l. reflexivity.
    + replace (vscale (norm w) (mv (mT R0) (normalize w))) with (mv (mT R0) (vscale (norm w) (normalize w))) by (unfold vscale, mv; cbn; f_equal; ring).
      rewrite mv_mT_r by exact RM. apply scaled_self; exact L.
Qed.

Lemma path_along_facts a w : rigid a -> visible w -> pt_len (path_along a w 1) = speed w /\ 0 <= speed w /\
  (0 < speed w -> forall s, path_pos (path_along a w 1) (s * speed w) = going a w s /\ path_vel (path_along a w 1) (s * speed w) (speed w) = w /\
     path_vel (path_along a w 1) (s * speed w) 0 = twist_zero) /\
  (speed w = 0 -> w = twist_zero /\ forall s, path_pos (path_along a w 1) 0 = going a w s /\ path_vel (path_along a w 1) 0 0 = twist_zero).
Proof.
  intros RM (HV & HW & _). destruct a as [R0 p0], w as [v w]. unfold rigid in RM. cbn [fM fp t_vel t_rot] in *. pose proof kdl_eps_pos as KP.
  unfold speed, path_along, mk_path, path_pos, path_vel, going. cbn [fM fp t_vel t_rot].
  destruct (seen_turn_axis R0 w RM HW) as (a & GR & C & AX). rewrite GR. cbn [fst snd]. rewrite Rmult_1_r.
  assert (forall x, vscale x (vscale (norm v) (normalize v)) = vscale x v) as SV.
  { intros x. destruct HV as [->|HV]; [rewrite norm_of_zero|rewrite scaled_self by exact HV; reflexivity].
    rewrite vscale_vscale, Rmult_0_r. unfold vscale, vzero. cbn. f_equal; ring. }
  assert (SV1 : vscale (norm v) (normalize v) = v) by (rewrite <- (vscale_1 (vscale (norm v) _)), SV; apply vscale_1).
  replace (if Rltb (norm v) kdl_eps then 0 else norm v) with (norm v).
  2:{ destruct HV as [->|HV]; [rewrite norm_of_zero; destruct (Rltb 0 kdl_eps); reflexivity|].
      replace (Rltb (norm v) kdl_eps) with false by (symmetry; apply Rltb_false; lra). reflexivity. }
  pose proof (norm_nonneg v) as N1. pose proof (norm_nonneg w) as N2.
  assert (Z0 : forall x y, Tw (vscale (0 * x) y) (mv R0 (vscale (0 * x) a)) = Tw (vscale (0 * x) y) vzero).
  { intros. f_equal. unfold vscale, mv, vzero. cbn. f_equal; ring. }
  assert (Z1 : forall x y, vscale (0 * x) y = vzero) by (intros; unfold vscale, vzero; cbn; f_equal; ring).
  assert (Z2 : forall x y, mv R0 (vscale (0 * x) y) = vzero) by (intros; unfold vscale, mv, vzero; cbn; f_equal; ring).
  destruct (negb (Reqb (norm w) 0) && Rltb (norm v) (norm w)) eqn:E.
  - apply andb_true_iff in E. destruct E as [E1 E2]. apply Rltb_true in E2.
    assert (Rmax (norm v) (norm w) = norm w) as -> by (apply Rmax_right; lra). cbn [pt_len pt_start pt_axis pt_dir pt_lin pt_rot fM fp].
    split; [reflexivity|]. split; [lra|]. split; [|intro; exfalso; lra]. intros P s. split; [|split].
    + replace (s * norm w * (1 / 1)) with (s * norm w) by field. rewrite C. f_equal. f_equal.
      replace (s * norm w * (norm v / norm w)) with (s * norm v) by (field; lra). rewrite <- vscale_vscale. apply SV.
    + replace (norm w * (norm v / norm w)) with (norm v) by (field; lra). replace (norm w * (1 / 1)) with (norm w) by field. rewrite SV1, AX. reflexivity.
    + rewrite Z1, Z2. reflexivity.
  - assert (norm w <= norm v) as LW.
    { apply andb_false_iff in E. destruct E as [E|E]; [|apply Rltb_false in E; lra]. apply negb_false_iff, Reqb_true in E. lra. }
    assert (Rmax (norm v) (norm w) = norm v) as -> by (apply Rmax_left; lra).
    destruct (Reqb (norm v) 0) eqn:E0; [apply Reqb_true in E0|]; cbn [negb pt_len pt_start pt_axis pt_dir pt_lin pt_rot fM fp].
    + split; [lra|]. split; [lra|]. split; [intro; exfalso; lra|]. intros _.
      assert (v = vzero) as -> by (destruct HV as [|HV]; auto; exfalso; lra). assert (w = vzero) as -> by (destruct HW as [|(_ & _ & HW)]; auto; exfalso; lra).
      split; [reflexivity|]. intros s. rewrite norm_of_zero in *. split; [|rewrite Z1, Z2; reflexivity]. replace (0 * 1) with (0 * 0) by ring. rewrite C.
      replace (s * 0) with (0 * 0) by ring. f_equal. f_equal. unfold vscale, vzero. cbn. f_equal; ring.
    + assert (VP : 0 < norm v). { destruct (Rle_lt_or_eq_dec 0 (norm v)) as [|Q]; auto. rewrite <- Q in E0. rewrite (proj2 (Reqb_true 0 0) eq_refl) in E0. discriminate. }
      split; [reflexivity|]. split; [lra|]. split; [|intro; exfalso; lra]. intros _ s. split; [|split].
      * replace (s * norm v * (norm w / norm v)) with (s * norm w) by (field; lra). rewrite C, Rmult_1_r, <- vscale_vscale, SV. reflexivity.
      * replace (norm v * (norm w / norm v)) with (norm w) by (field; lra). rewrite Rmult_1_r, SV1, AX. reflexivity.
      * rewrite Z1, Z2. reflexivity.
Qed.

Lemma along_going a w t : rigid a -> visible w -> 0 <= t -> t * speed w <= 10 -> along_pos a w t = going a w t /\ along_vel a w t = w.
Proof.
  intros RA VW T0 T1. destruct (path_along_facts a w RA VW) as (L & L0 & P & Z). destruct VW as (_ & _ & S10).
  unfold along_pos, along_vel, along_profile, rect_duration, rect_pos, rect_vel. rewrite L.
  replace (Rltb t 0) with false by (symmetry; apply Rltb_false; lra).
  destruct (Reqb (speed w) 0) eqn:E.
  - apply Reqb_true in E. destruct (Z E) as (W & G). cbn [rc_p rc_v rc_d past]. replace (0 + 0 * t) with 0 by ring. destruct (G t) as (-> & ->). auto.
  - assert (SP : 0 < speed w). { destruct (Rle_lt_or_eq_dec _ _ L0) as [|Q]; auto. rewrite <- Q in E. rewrite (proj2 (Reqb_true 0 0) eq_refl) in E. discriminate. }
    replace ((10 - 0) / (10 / speed w)) with (speed w) by (field; lra). replace (Rltb 10 (speed w)) with false by (symmetry; apply Rltb_false; lra).
    cbn [rc_p rc_v rc_d past]. replace (Rltb ((10 - 0) / speed w) t) with false.
    2:{ symmetry. apply Rltb_false. apply (Rmult_le_reg_r (speed w)); [lra|]. unfold Rdiv. rewrite Rmult_assoc, Rinv_l by lra. lra. }
    replace (0 + speed w * t) with (t * speed w) by ring. destruct (P SP t) as (-> & -> & _). auto.
Qed.
(** after ten units of path *)
Lemma along_over a w t : rigid a -> visible w -> 10 < t * speed w -> 0 <= t -> along_pos a w t = going a w (10 / speed w) /\ along_vel a w t = twist_zero.
Proof.
  intros RA VW T1 T0. destruct (path_along_facts a w RA VW) as (L & L0 & P & _). destruct VW as (_ & _ & S10).
  assert (SP : 0 < speed w) by (destruct (Rle_lt_or_eq_dec _ _ L0) as [|Q]; auto; rewrite <- Q in T1; lra).
  unfold along_pos, along_vel, along_profile, rect_duration, rect_pos, rect_vel. rewrite L.
  replace (Rltb t 0) with false by (symmetry; apply Rltb_false; lra). rewrite Reqb_of by lra.
  replace ((10 - 0) / (10 / speed w)) with (speed w) by (field; lra). replace (Rltb 10 (speed w)) with false by (symmetry; apply Rltb_false; lra).
  cbn [rc_p rc_v rc_d past]. replace (Rltb ((10 - 0) / speed w) t) with true.
  2:{ symmetry. apply Rltb_true. apply (Rmult_lt_reg_r (speed w)); [lra|]. unfold Rdiv. rewrite Rmult_assoc, Rinv_l by lra. lra. }
  replace (speed w * ((10 - 0) / speed w) + 0) with (10 / speed w * speed w) by (field; lra). destruct (P SP (10 / speed w)) as (-> & _ & ->). auto.
Qed.
