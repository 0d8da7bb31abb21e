(** Velocity of a joint and of a segment, told in the axes of the segment; the links of a chain that moves. *)
From Coq Require Import Reals Lra List Bool.
From Verif Require Import Kdl KdlFacts KdlRot KinRep KdlSolver Ft Config Tree Dyn AsibotSpec DynSpec DynFacts.
Import ListNotations.
Open Scope R_scope.
Local Notation length := List.length.

Definition sol (s : segment) : Prop := rigid (s_tip s) /\ (j_type (s_joint s) = JRotAxis -> unit (j_axis (s_joint s))).
Lemma RotX_2 : forall x, RotX x = Rot2 (V 1 0 0) x.
Proof. intro. unfold RotX, Rot2. apply mat_eq; cbn [m00 m01 m02 m10 m11 m12 m20 m21 m22 vx vy vz]; ring. Qed.
Lemma RotY_2 : forall x, RotY x = Rot2 (V 0 1 0) x.
Proof. intro. unfold RotY, Rot2. apply mat_eq; cbn [m00 m01 m02 m10 m11 m12 m20 m21 m22 vx vy vz]; ring. Qed.
Lemma RotZ_2 : forall x, RotZ x = Rot2 (V 0 0 1) x.
Proof. intro. unfold RotZ, Rot2. apply mat_eq; cbn [m00 m01 m02 m10 m11 m12 m20 m21 m22 vx vy vz]; ring. Qed.
Lemma unit_x : unit (V 1 0 0). Proof. unfold unit, dot; cbn [vx vy vz]; ring. Qed.
Lemma unit_y : unit (V 0 1 0). Proof. unfold unit, dot; cbn [vx vy vz]; ring. Qed.
Lemma unit_z : unit (V 0 0 1). Proof. unfold unit, dot; cbn [vx vy vz]; ring. Qed.

Lemma spins_Rot2 : forall a f t v, unit a -> derivable_pt_lim f t v -> spins (fun s => Rot2 a (f s)) t (vscale v a).
Proof.
  intros a f t v U D. unfold spins, Rot2. cbn [vscale vx vy vz m00 m01 m02 m10 m11 m12 m20 m21 m22].
  unfold unit, dot in U.
  repeat split; (eapply dl_eq; [dl|]); cbv beta; first [ring | apply Rminus_diag_uniq;
    transitivity (sin (f t) * v * ((vx a * vx a + vy a * vy a + vz a * vz a) - 1)); [ring | rewrite U; ring] ].
Qed.
Lemma joint_rigid : forall s x, sol s -> rigid (joint_pose (s_joint s) x).
Proof.
  intros [[ty sc off ax o] tip] x [_ U]. unfold joint_pose, rigid. cbn [s_joint j_type j_axis j_scale j_offset j_origin] in *.
  destruct ty; cbn [fM ftrans fid]; try apply rot_id.
  - apply Rot2_rot. auto.
  - rewrite RotX_2. apply Rot2_rot, unit_x.
  - rewrite RotY_2. apply Rot2_rot, unit_y.
  - rewrite RotZ_2. apply Rot2_rot, unit_z.
Qed.
Lemma segment_rigid : forall s x, sol s -> rigid (segment_pose s x).
Proof. intros s x H. apply rigid_mul; [apply joint_rigid, H | apply H]. Qed.

Lemma velocity_const : forall f t, velocity_of (fun _ => f) t twist_zero.
Proof. intros. apply velocity_split. split; [apply vr_const | apply spins_const]. Qed.
Lemma joint_velocity : forall s x t v, sol s -> derivable_pt_lim x t v -> velocity_of (fun u => joint_pose (s_joint s) (x u)) t (joint_twist (s_joint s) v).
Proof.
  intros [[ty sc off ax o] tip] x t v [_ U] D.
  assert (D' : derivable_pt_lim (fun u => sc * x u + off) t (sc * v)) by dlr.
  unfold joint_pose, joint_twist, joint_axis. cbn [s_joint j_type j_axis j_scale j_offset j_origin] in *.
  destruct ty; apply velocity_split; cbn [fM fp t_vel t_rot ftrans fid twist_zero]; (split; try apply vr_const; try apply spins_const).
  - apply spins_Rot2; auto.
  - eapply spins_ext; [intro; symmetry; apply RotX_2 | apply spins_Rot2; [apply unit_x | exact D']].
  - eapply spins_ext; [intro; symmetry; apply RotY_2 | apply spins_Rot2; [apply unit_y | exact D']].
  - eapply spins_ext; [intro; symmetry; apply RotZ_2 | apply spins_Rot2; [apply unit_z | exact D']].
  - eapply vr_eq; [apply vr_add; [apply vr_const | apply vr_scale; [exact D' | apply vr_const]]|]. vlin.
  - repeat split; cbn [vscale vx vy vz]; dlr.
  - repeat split; cbn [vscale vx vy vz]; dlr.
  - repeat split; cbn [vscale vx vy vz]; dlr.
Qed.
Lemma segment_velocity : forall s x t v, sol s -> derivable_pt_lim x t v -> velocity_of (fun u => segment_pose s (x u)) t (segment_twist s (x t) v).
Proof.
  intros s x t v H D. unfold segment_pose.
  eapply velocity_eq; [apply velocity_mul; [apply joint_velocity; eassumption | apply velocity_const | apply joint_rigid, H]|].
  unfold segment_twist. cbn [twist_zero t_vel t_rot]. rewrite !mv_zero, !vadd_zero_r. reflexivity.
Qed.

(** ** The movement of a joint at unit speed, in the axes of the end of its segment: the same for all positions *)
Definition screw (s : segment) : twist :=
  let d := joint_twist (s_joint s) 1 in trot (mT (fM (s_tip s))) (Tw (vadd (t_vel d) (cross (t_rot d) (fp (s_tip s)))) (t_rot d)).
Lemma axis_fixed : forall s x v, sol s ->
  let m := mT (fM (joint_pose (s_joint s) x)) in mv m (t_rot (joint_twist (s_joint s) v)) = t_rot (joint_twist (s_joint s) v) /\ mv m (t_vel (joint_twist (s_joint s) v)) = t_vel (joint_twist (s_joint s) v).
Proof.
  intros [[ty sc off ax o] tip] x v [_ U]. unfold joint_pose, joint_twist, joint_axis. cbn [s_joint j_type j_axis j_scale j_offset j_origin] in *.
  assert (A : forall a y k, unit a -> mv (mT (Rot2 a y)) (vscale k a) = vscale k a).
  { intros a y k Ha. rewrite mv_scale. f_equal. rewrite <- (Rot2_axis a y Ha) at 2. apply mv_mT_l, Rot2_rot, Ha. }
  destruct ty; cbn [fM ftrans fid t_rot t_vel twist_zero]; rewrite ?mT_id, ?mv_id, ?mv_zero; split; try reflexivity.
  - apply A; auto.
  - rewrite RotX_2. apply A, unit_x.
  - rewrite RotY_2. apply A, unit_y.
  - rewrite RotZ_2. apply A, unit_z.
Qed.
Lemma joint_twist_scale : forall j v, joint_twist j v = tscale v (joint_twist j 1).
Proof.
  intros [ty sc off ax o] v. unfold joint_twist, tscale, joint_axis, twist_zero, vzero. cbn [j_type j_scale j_axis].
  destruct ty; cbn [t_vel t_rot]; apply (f_equal2 Tw); vlin.
Qed.
Lemma tscale_trot : forall k m a, tscale k (trot m a) = trot m (tscale k a).
Proof. intros. unfold tscale, trot. cbn [t_vel t_rot]. rewrite !mv_scale. reflexivity. Qed.
Lemma screw_twist : forall s x v, sol s -> trot (mT (fM (segment_pose s x))) (segment_twist s x v) = tscale v (screw s).
Proof.
  intros s x v H. unfold screw. rewrite tscale_trot. unfold segment_twist, segment_pose, trot. cbn [t_vel t_rot fmul fM].
  destruct (axis_fixed s x v H) as [A B]. pose proof (joint_rigid s x H) as J.
  rewrite mT_mm, !mv_mm. rewrite (mv_add (mT (fM (joint_pose _ _)))), B, A.
  rewrite cross_rot by (apply rot_mT, J). rewrite A, mv_mT_l by apply J.
  rewrite joint_twist_scale. unfold tscale. cbn [t_vel t_rot]. f_equal. f_equal. rewrite cross_scale_l. vlin.
Qed.
Lemma screw_twist' : forall s x v, sol s -> segment_twist s x v = trot (fM (segment_pose s x)) (tscale v (screw s)).
Proof.
  intros s x v H. rewrite <- (screw_twist s x v H). unfold trot. cbn [t_vel t_rot]. rewrite !mv_mT_r by apply segment_rigid, H.
  destruct (segment_twist s x v); reflexivity.
Qed.

(** ** A frame that moves with a velocity told in its own axes *)
Definition flies (f : R -> frame) (t : R) (b : twist) : Prop := velocity_of f t (trot (fM (f t)) b).
Lemma flies_next : forall f t b s x v, rigid (f t) -> sol s -> flies f t b -> derivable_pt_lim x t v ->
  flies (fun u => fmul (f u) (segment_pose s (x u))) t (tadd (ftwist_inv (segment_pose s (x t)) b) (tscale v (screw s))).
Proof.
  intros f t b s x v R H B D. unfold flies in *.
  eapply velocity_eq; [apply velocity_mul; [exact B | apply segment_velocity; eassumption | exact R]|].
  cbv beta. rewrite screw_twist' by exact H. set (X := segment_pose s (x t)) in *. assert (RX : rigid X) by apply segment_rigid, H.
  unfold trot, tadd, ftwist_inv. cbn [t_vel t_rot fmul fM]. f_equal.
  - rewrite !mv_mm, !mv_add, mv_mT_r by exact RX. rewrite (cross_anti (fp X)), mv_sub, mv_neg, cross_rot by exact R.
    set (u := mv (fM (f t)) (mv (fM X) _)). generalize (cross (mv (fM (f t)) (t_rot b)) (mv (fM (f t)) (fp X))). intro y. vlin.
  - rewrite !mv_mm, !mv_add, mv_mT_r by exact RX. reflexivity.
Qed.
(** the same at rest of the joint *)
Lemma flies_fixed : forall f t b s, rigid (f t) -> sol s -> flies f t b ->
  flies (fun u => fmul (f u) (segment_pose s 0)) t (tadd (ftwist_inv (segment_pose s 0) b) (tscale 0 (screw s))).
Proof. intros. apply (flies_next f t b s (fun _ => 0) 0); auto. apply dl_const. Qed.
