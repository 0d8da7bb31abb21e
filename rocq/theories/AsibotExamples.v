(** Concrete arms and joint positions for the statements about the solver of ASIBOT. *)
From Coq Require Import Reals Lra Lia List Bool Arith.
From Verif Require Import Kdl KdlFacts KdlRot KdlRotFacts Trig TrigFacts KinRep KinRepSpec KinRepFacts KinRepFacts2 KinRepFacts3 Asibot AsibotSpec AsibotFacts AsibotFacts2 AsibotFacts3 AsibotFacts4.
Import ListNotations.
Open Scope R_scope.
Local Notation S := Datatypes.S.

(** two links of length 1, a wrist of 1/2 at height 1; [sT] has a tool of length 1 *)
Definition lim : list R := [180; 180; 180; 180; 180].
Definition s1 : asibot := As 1 1 1 (/ 2) (map Ropp lim) lim false fid.
Definition sT : asibot := As 1 1 1 (/ 2) (map Ropp lim) lim true (up 1).
Definition qa : list R := [0; 30; 120; -60; 0].
(** a decomposition as assumed: the first non-zero column of m + 1 *)
Definition norm1 (v : vec) : vec := vscale (/ norm v) v.
Definition svd0 (m : mat) : vec :=
  let c1 := V (m00 m + 1) (m10 m) (m20 m) in let c2 := V (m01 m) (m11 m + 1) (m21 m) in let c3 := V (m02 m) (m12 m) (m22 m + 1) in
  if Reqb (dot c1 c1) 0 then if Reqb (dot c2 c2) 0 then if Reqb (dot c3 c3) 0 then V 1 0 0 else norm1 c3 else norm1 c2 else norm1 c1.
Lemma norm1_unit : forall v, dot v v <> 0 -> unit (norm1 v).
Proof.
  intros v N. assert (0 < dot v v) by (destruct v; unfold dot in *; cbn in *; nra). unfold unit, norm1. assert (K : norm v * norm v = dot v v) by (unfold norm; apply sqrt_sqrt; lra).
  assert (norm v <> 0) by (intros Z; rewrite Z in K; lra).
  replace (dot (vscale (/ norm v) v) (vscale (/ norm v) v)) with (dot v v * / norm v * / norm v) by (destruct v; unfold dot; cbn; ring).
  rewrite <- K. field. auto.
Qed.
Lemma mv_scale : forall m k v, mv m (vscale k v) = vscale k (mv m v).
Proof. intros [] k []. apply vec_eq; cbn; ring. Qed.
Lemma three_squares : forall a b c, a * a + b * b + c * c = 0 -> a = 0 /\ b = 0 /\ c = 0.
Proof. intros. repeat split; nra. Qed.
Lemma svd0_ok : svd_ok svd0.
Proof.
  intros m. unfold svd0. set (c1 := V (m00 m + 1) (m10 m) (m20 m)). set (c2 := V (m01 m) (m11 m + 1) (m21 m)). set (c3 := V (m02 m) (m12 m) (m22 m + 1)).
  assert (FIX : rotation_matrix m -> mT m = m -> mv m c1 = c1 /\ mv m c2 = c2 /\ mv m c3 = c3).
  { intros [O _] T. rewrite T in O. subst c1 c2 c3. destruct m as [x00 x01 x02 x10 x11 x12 x20 x21 x22]. unfold mm, mid in O. cbn in *. injection O as ?????????.
    repeat split; apply vec_eq; cbn; lra. }
  assert (N1 : forall c, mv m c = c -> mv m (norm1 c) = norm1 c) by (intros c E; unfold norm1; rewrite mv_scale, E; reflexivity).
  destruct (Reqb (dot c1 c1) 0) eqn:E1.
  2:{ apply Reqb_false in E1. split; [apply norm1_unit; exact E1|]. intros RM T. apply N1. apply FIX; auto. }
  destruct (Reqb (dot c2 c2) 0) eqn:E2.
  2:{ apply Reqb_false in E2. split; [apply norm1_unit; exact E2|]. intros RM T. apply N1. apply FIX; auto. }
  destruct (Reqb (dot c3 c3) 0) eqn:E3.
  2:{ apply Reqb_false in E3. split; [apply norm1_unit; exact E3|]. intros RM T. apply N1. apply FIX; auto. }
  apply Reqb_true in E1, E2, E3. split; [unfold unit, dot; cbn; ring|]. intros [_ D] _. exfalso.
  subst c1 c2 c3. unfold dot in *. cbn in *.
  assert (m00 m = -1 /\ m10 m = 0 /\ m20 m = 0) as (A & B & C) by (apply three_squares in E1; lra).
  assert (m11 m = -1 /\ m01 m = 0 /\ m21 m = 0) as (A' & B' & C') by (apply three_squares in E2; lra).
  assert (m22 m = -1 /\ m02 m = 0 /\ m12 m = 0) as (A'' & B'' & C'') by (apply three_squares in E3; lra).
  unfold det in D. rewrite A, B, C, A', B', C', A'', B'', C'' in D. lra.
Qed.
(** angles *)
Lemma r30 : rad 30 = PI / 6. Proof. unfold rad. field. Qed.
Lemma r120 : rad 120 = 2 * (PI / 3). Proof. unfold rad. field. Qed.
Lemma r0 : rad 0 = 0. Proof. unfold rad. field. Qed.
Lemma sum150 : rad 30 + rad 120 = PI - PI / 6. Proof. unfold rad. field. Qed.
Lemma sum90 : rad 30 + rad 120 + rad (-60) = PI / 2. Proof. unfold rad. field. Qed.
Lemma ZYZ_Y : forall b, EulerZYZ 0 b 0 = RotY b.
Proof. intros. unfold EulerZYZ. apply mat_eq; cbn; rewrite ?sin_0, ?cos_0; ring. Qed.
Lemma flange_a : forall s, A0 s = 1 -> A1 s = 1 -> A2 s = 1 -> A3 s = / 2 -> flange s qa = F (RotY (PI / 2)) (V (3 / 2) 0 1).
Proof.
  intros s H0 H1 H2 H3. unfold flange, qa. rewrite H0, H1, H2, H3, arm_form, sum90, sum150, r0, ZYZ_Y. f_equal.
  rewrite sin_PI_x, Rtrigo_facts.cos_pi_minus, r30, sin_PI6, cos_PI6, sin_PI2, cos_PI2, sin_0, cos_0. apply vec_eq; cbn; field.
Qed.
Lemma ahead_a : forall s, A1 s = 1 -> A2 s = 1 -> A3 s = / 2 -> ahead s qa = 3 / 2.
Proof. intros s H1 H2 H3. unfold ahead, qa. rewrite H1, H2, H3, sum90, sum150, sin_PI_x, r30, sin_PI6, sin_PI2. field. Qed.
Lemma off_Y : regular_log (RotY (PI / 2)).
Proof. left. right. left. cbn. rewrite sin_PI2. unfold kdl_eps. rewrite Rabs_pos_eq; lra. Qed.
Lemma deg0 : forall x, - 180 <= x <= 180 -> Rabs (x * PI / 180) <= PI.
Proof. intros x H. pose proof PI_RGT_0. apply Rabs_le. split; nra. Qed.
Lemma within_a : forall q, length q = 5%nat -> one_turn q -> within q (map Ropp lim) lim.
Proof.
  intros q L OT. destruct (five q L) as (v1 & v2 & v3 & v4 & v5 & ->). split; [reflexivity|]. unfold one_turn in OT.
  inversion OT as [|? ? H1 O1]; subst. inversion O1 as [|? ? H2 O2]; subst. inversion O2 as [|? ? H3 O3]; subst. inversion O3 as [|? ? H4 O4]; subst. inversion O4 as [|? ? H5 O5]; subst.
  intros i x l h. do 5 (destruct i as [|i]; [cbn; intros [= <-] [= <-] [= <-]; lra|]). destruct i; discriminate.
Qed.
Lemma turn_a : one_turn qa.
Proof. unfold one_turn, qa. repeat constructor; lra. Qed.
Lemma not_shoulder_a : forall s, A1 s = 1 -> A2 s = 1 -> ~ wrist_at_shoulder s qa.
Proof. intros s H1 H2 [E _]. rewrite H1, H2, sum150, r30, sin_PI_x, sin_PI6 in E. lra. Qed.
Lemma atan2_0 : forall x, 0 < x -> atan2 0 x = 0.
Proof. intros x X. replace 0 with (x * sin 0) at 1 by (rewrite sin_0; ring). replace x with (x * cos 0) at 2 by (rewrite cos_0; ring). pose proof PI_RGT_0. apply atan2_unique; lra. Qed.
Lemma atan2_pi : forall x, x < 0 -> atan2 0 x = PI.
Proof. intros x X. replace 0 with (- x * sin PI) at 1 by (rewrite sin_PI; ring). replace x with (- x * cos PI) at 2 by (rewrite cos_PI; ring). pose proof PI_RGT_0. apply atan2_unique; lra. Qed.
Lemma yz_a : yz_pose (F (RotY (PI / 2)) (V (3 / 2) 0 1)).
Proof.
  exists (PI / 2), 0. pose proof PI_RGT_0. split; [lra|]. split; [rewrite cos_PI2, Rabs_R0; unfold tiny; lra|]. cbn [fM fp vx vy]. rewrite atan2_0 by lra.
  symmetry. apply ZYZ_Y.
Qed.
Lemma unit_y : unit (V 0 1 0). Proof. unfold unit, dot. cbn. ring. Qed.
Lemma half_pi_large : kdl_eps <= PI / 2.
Proof. pose proof PI2_1. unfold kdl_eps. lra. Qed.
Definition xa (z : R) : list R := [z; 0; 1; 0; PI / 2; 0].
Lemma denotes_a : forall z, denotes (xa z) (F (RotY (PI / 2)) (V z 0 1)).
Proof.
  intros z. exists (V 0 1 0), (PI / 2). split; [exact unit_y|]. split; [right; exact half_pi_large|]. split.
  - unfold xa. cbn. replace (PI / 2 * 0) with 0 by ring. rewrite Rmult_1_r. reflexivity.
  - apply RotY_Rot2.
Qed.
Lemma tooled : fmul (F (RotY (PI / 2)) (V (3 / 2) 0 1)) (up 1) = F (RotY (PI / 2)) (V (5 / 2) 0 1).
Proof. unfold fmul, up. cbn [fM fp]. f_equal; [apply mat_eq; cbn; ring|]. apply vec_eq; cbn; rewrite ?sin_PI2, ?cos_PI2; field. Qed.
Lemma rigid_up : forall h, rigid (up h).
Proof. intros. apply rot_id. Qed.
Lemma made_1 : well_made s1. Proof. split; reflexivity. Qed.
Lemma made_T : well_made sT. Proof. split; reflexivity. Qed.
(** forward kinematics *)
Lemma forward_a : exists x, fwdKin svd0 sT qa = Some x /\ denotes x (F (RotY (PI / 2)) (V (5 / 2) 0 1)).
Proof.
  assert (FL : flange sT qa = F (RotY (PI / 2)) (V (3 / 2) 0 1)) by (apply flange_a; reflexivity).
  rewrite <- tooled, <- FL. apply forward_pose; [reflexivity|apply svd0_ok| |apply rigid_up| |]; rewrite ?FL.
  - rewrite ahead_a by reflexivity. lra.
  - apply off_Y.
  - change (tool sT) with (up 1). rewrite tooled. apply off_Y.
Qed.
(** inverse kinematics *)
Lemma found_a : exists q, invKin svd0 sT (xa (5 / 2)) [0; 0; 0; 0; 0] BASE_FRAME = Some (Some q).
Proof.
  assert (FL : flange sT qa = F (RotY (PI / 2)) (V (3 / 2) 0 1)) by (apply flange_a; reflexivity).
  apply (found svd0 sT (xa (5 / 2)) [0; 0; 0; 0; 0] qa); cbn [A1 A2 A3 sT]; rewrite ?FL; try lra.
  - apply made_T.
  - apply svd0_ok.
  - cbn; lia.
  - apply rigid_up.
  - change (tool sT) with (up 1). rewrite tooled. apply denotes_a.
  - intros _. apply off_Y.
  - apply within_a; [reflexivity|apply turn_a].
  - apply turn_a.
  - apply not_shoulder_a; reflexivity.
  - apply yz_a.
Qed.
(** behind the first axis: the orientation that is reported *)
Lemma behind : exists s q x, length q = 5%nat /\ hasFrame s = false /\ regular_log (fM (flange s q)) /\ fwdKin svd0 s q = Some x /\ ~ denotes x (flange s q).
Proof.
  exists s1, [0; -90; 0; 0; 0]. rewrite fwd_raw. change (hasFrame s1) with false. cbv iota.
  set (h := raw s1 0 (-90) 0 0 0). eexists. split; [reflexivity|]. split; [reflexivity|].
  assert (N90 : rad (-90) = - (PI / 2)) by (unfold rad; field).
  assert (FL : flange s1 [0; -90; 0; 0; 0] = F (RotY (- (PI / 2))) (V (- (5 / 2)) 0 1)).
  { unfold flange. rewrite arm_form, r0, N90, !Rplus_0_r, ZYZ_Y. cbn [A0 A1 A2 A3 s1]. f_equal. rewrite sin_neg, cos_neg, sin_PI2, cos_PI2, sin_0, cos_0. apply vec_eq; cbn; field. }
  assert (M : fM h = EulerZYZ PI (- (PI / 2)) 0).
  { unfold h, raw. rewrite FL. cbn [fM fp vx vy]. rewrite atan2_pi by lra. f_equal; rewrite ?r0, ?Rplus_0_r; auto. }
  assert (RL : regular_log (fM h)).
  { rewrite M. right. cbn. rewrite sin_neg, cos_neg, sin_PI, cos_PI, sin_PI2, cos_PI2, sin_0, cos_0. repeat split; ring. }
  split; [rewrite FL; left; right; left; cbn; rewrite sin_neg, sin_PI2; unfold kdl_eps; rewrite Rabs_left; lra|].
  split; [reflexivity|]. intros D. pose proof (GetRot_denotes (fp h) (fM h) (raw_rigid _ _ _ _ _ _) RL) as D2.
  pose proof (denotes_unique _ _ _ D D2) as E. rewrite FL in E. apply (f_equal (fun f => m02 (fM f))) in E. cbn [fM] in E. rewrite M in E.
  cbn in E. rewrite sin_neg, sin_PI2, cos_neg, cos_PI2, cos_PI, ?sin_PI, ?sin_0, ?cos_0 in E. lra.
Qed.
(** the wrist at the shoulder *)
Lemma at_shoulder : exists s q0 xd guess, well_made s /\ 0 < A1 s /\ 0 < A2 s /\ 0 <= A3 s /\ hasFrame s = false /\ (5 <= length guess)%nat /\
  denotes xd (flange s q0) /\ within q0 (qMin s) (qMax s) /\ one_turn q0 /\ yz_pose (flange s q0) /\ invKin svd0 s xd guess BASE_FRAME = Some None.
Proof.
  exists s1, [0; 0; 180; -90; 0], (xa (/ 2)), [0; 0; 180; -90; 0].
  assert (R180 : rad 180 = PI) by (unfold rad; field). assert (N90 : rad (-90) = - (PI / 2)) by (unfold rad; field).
  assert (FL : flange s1 [0; 0; 180; -90; 0] = F (RotY (PI / 2)) (V (/ 2) 0 1)).
  { unfold flange. rewrite arm_form, r0, N90, R180, !Rplus_0_l. replace (PI + - (PI / 2)) with (PI / 2) by field. rewrite ZYZ_Y. cbn [A0 A1 A2 A3 s1]. f_equal.
    rewrite sin_PI, cos_PI, sin_PI2, cos_PI2, sin_0, cos_0. apply vec_eq; cbn; field. }
  assert (YZ : yz_pose (F (RotY (PI / 2)) (V (/ 2) 0 1))).
  { exists (PI / 2), 0. pose proof PI_RGT_0. split; [lra|]. split; [rewrite cos_PI2, Rabs_R0; unfold tiny; lra|]. cbn [fM fp vx vy]. rewrite atan2_0 by lra. symmetry. apply ZYZ_Y. }
  assert (OT : one_turn [0; 0; 180; -90; 0]) by (unfold one_turn; repeat constructor; lra).
  assert (RN : rigid (F (RotY (PI / 2)) (V (/ 2) 0 1))) by (unfold rigid; cbn [fM]; rewrite RotY_Rot2; apply Rot2_rot, unit_y).
  rewrite FL. split; [apply made_1|]. cbn [A1 A2 A3 s1]. do 3 (split; [lra|]). split; [reflexivity|]. split; [cbn; lia|]. split; [apply denotes_a|].
  split; [apply within_a; auto|]. split; [exact OT|]. split; [exact YZ|].
  rewrite (inv_base svd0 s1 _ _ (F (RotY (PI / 2)) (V (/ 2) 0 1))); [|apply svd0_ok|apply rot_id|exact RN|change (tool s1) with fid; rewrite fmul_id_r; apply denotes_a|discriminate].
  pose proof (yz_decoded _ RN YZ) as YD. pose proof (pitch_of _ RN) as PO. cbn [fM fp vx vy vz] in *. destruct (GetEulerZYZ (RotY (PI / 2))) as [[a b] g].
  destruct YD as (B & G & _). destruct PO as [_ PO]. cbn [m22 RotY] in PO. rewrite cos_PI2, Rabs_R0 in PO. destruct (PO ltac:(unfold tiny; lra)) as [CB _].
  assert (SB : sin b = 1) by (pose proof (sin2_cos2 b) as Q; unfold Rsqr in Q; rewrite CB in Q; pose proof (sin_gt_0 b (proj1 B) (proj2 B)); nra).
  apply core_shoulder; [apply made_1| |]; cbn [A0 A3 s1]; rewrite ?SB, ?CB.
  - replace (/ 2 * / 2 + 0 * 0) with (/ 2 * / 2) by ring. rewrite sqrt_square by lra. ring.
  - ring.
Qed.
Lemma half_sin : forall d k, -1 <= k <= 1 -> Rabs (2 * k * sin (d / 2)) <= Rabs d.
Proof.
  intros d k K. rewrite !Rabs_mult, (Rabs_pos_eq 2) by lra. pose proof (sin_abs_le (d / 2)) as H. unfold Rdiv in H at 2. rewrite (Rabs_mult d), (Rabs_pos_eq (/ 2)) in H by lra.
  pose proof (Rabs_pos (sin (d / 2))) as H0. pose proof (Rabs_le _ _ K) as H1. pose proof (Rabs_pos k) as H2.
  assert (Rabs k * Rabs (sin (d / 2)) <= 1 * Rabs (sin (d / 2))) by (apply Rmult_le_compat_r; auto). lra.
Qed.
Lemma cos_lip : forall u v, Rabs (cos u - cos v) <= Rabs (u - v).
Proof.
  intros. rewrite form2. replace (-2 * sin ((u - v) / 2) * sin ((u + v) / 2)) with (2 * (- sin ((u + v) / 2)) * sin ((u - v) / 2)) by ring.
  apply half_sin. pose proof (SIN_bound ((u + v) / 2)). lra.
Qed.
Lemma sin_lip : forall u v, Rabs (sin u - sin v) <= Rabs (u - v).
Proof. intros. rewrite form4. apply half_sin. pose proof (COS_bound ((u + v) / 2)). lra. Qed.
Lemma ones : forall p r, -1 <= p <= 1 -> -1 <= r <= 1 -> p * r = 1 -> p = 1 /\ r = 1 \/ p = -1 /\ r = -1.
Proof. intros p r ? ? ?; destruct (Rle_or_lt 0 p); [left|right]; split; nra. Qed.
Lemma rad_near : forall u v, -1 < u - v < 1 -> Rabs (rad u - rad v) < 1.
Proof. intros u v H. pose proof PI_4. pose proof PI_RGT_0. unfold rad. apply Rabs_def1; nra. Qed.
(** the pitch of the other side: the pose is reached, and the answer is another orientation *)
Lemma reversed : exists s q0 xd guess q, well_made s /\ 0 < A1 s /\ 0 < A2 s /\ 0 <= A3 s /\ hasFrame s = false /\
  denotes xd (flange s q0) /\ within q0 (qMin s) (qMax s) /\ one_turn q0 /\ 0 < ahead s q0 /\
  invKin svd0 s xd guess BASE_FRAME = Some (Some q) /\ forall q', close q' q -> fM (flange s q') <> fM (flange s q0).
Proof.
  set (q0 := [0; 90; 0; 180; 0]).
  assert (R90 : rad 90 = PI / 2) by (unfold rad; field). assert (R180 : rad 180 = PI) by (unfold rad; field).
  assert (S3 : sin (PI / 2 + PI) = -1) by (rewrite neg_sin, sin_PI2; reflexivity). assert (C3 : cos (PI / 2 + PI) = 0) by (rewrite neg_cos, cos_PI2; ring).
  assert (FL : flange s1 q0 = F (RotY (PI / 2 + PI)) (V (3 / 2) 0 1)).
  { unfold flange, q0. rewrite arm_form, r0, R90, R180, !Rplus_0_r, ZYZ_Y. cbn [A0 A1 A2 A3 s1]. f_equal. rewrite S3, C3, sin_PI2, cos_PI2, sin_0, cos_0. apply vec_eq; cbn; field. }
  assert (RN : rigid (F (RotY (PI / 2 + PI)) (V (3 / 2) 0 1))) by (unfold rigid; cbn [fM]; rewrite RotY_Rot2; apply Rot2_rot, unit_y).
  assert (OT : one_turn q0) by (unfold one_turn, q0; repeat constructor; lra).
  assert (D : denotes [3 / 2; 0; 1; 0; - (PI / 2); 0] (F (RotY (PI / 2 + PI)) (V (3 / 2) 0 1))).
  { exists (V 0 (-1) 0), (PI / 2). split; [unfold unit, dot; cbn; ring|]. split; [right; exact half_pi_large|]. split.
    - cbn. replace (PI / 2 * 0) with 0 by ring. replace (PI / 2 * -1) with (- (PI / 2)) by ring. reflexivity.
    - cbn [fM]. apply mat_eq; cbn; rewrite ?S3, ?C3, ?sin_PI2, ?cos_PI2; ring. }
  pose proof (pitch_of _ RN) as PO. pose proof (zyz_bounds _ RN) as ZB. pose proof (inv_base svd0 s1 [3 / 2; 0; 1; 0; - (PI / 2); 0] q0 _ svd0_ok (rot_id) RN) as IB.
  change (tool s1) with fid in IB. rewrite fmul_id_r in IB. specialize (IB D ltac:(discriminate)). cbn [fM fp vx vy vz] in *.
  destruct (GetEulerZYZ (RotY (PI / 2 + PI))) as [[a b] g]. destruct ZB as [_ G]. destruct PO as [_ PO]. cbn [m22 RotY] in PO. rewrite C3, Rabs_R0 in PO.
  destruct (PO ltac:(unfold tiny; lra)) as [CB B].
  pose proof PI_RGT_0 as P0.
  assert (SB : sin b = 1) by (pose proof (sin2_cos2 b) as Q; unfold Rsqr in Q; rewrite CB in Q; pose proof (sin_gt_0 b (proj1 B) (proj2 B)); nra).
  assert (BB : b = PI / 2) by (apply angle_unique; [lra|lra|rewrite cos_PI2; exact CB|rewrite sin_PI2; exact SB]). subst b.
  assert (FL2 : flange s1 [0; 30; 120; -60; radToDeg g] = F (EulerZYZ (atan2 0 (3 / 2)) (PI / 2) g) (V (3 / 2) 0 1)).
  { rewrite atan2_0 by lra. unfold flange. rewrite arm_form, sum90, sum150, r0, rad_of_deg. cbn [A0 A1 A2 A3 s1]. f_equal.
    rewrite sin_PI_x, Rtrigo_facts.cos_pi_minus, r30, sin_PI6, cos_PI6, sin_PI2, cos_PI2, sin_0, cos_0. apply vec_eq; cbn; field. }
  assert (OT2 : one_turn [0; 30; 120; -60; radToDeg g]).
  { pose proof (deg_bound_l g (-1) 1 ltac:(lra)). unfold one_turn. do 5 (apply Forall_cons; [lra|]). apply Forall_nil. }
  destruct (core_complete s1 q0 [0; 30; 120; -60; radToDeg g] (3 / 2) 0 1 (PI / 2) g made_1) as (q & CQ); cbn [A1 A2 A3 s1]; try lra; auto.
  { apply within_a; auto. }
  { intros [E _]. cbn [A1 A2 s1] in E. rewrite sum150, r30, sin_PI_x, sin_PI6 in E. lra. }
  exists s1, q0, [3 / 2; 0; 1; 0; - (PI / 2); 0], q0, q. rewrite FL. cbn [A1 A2 A3 s1]. split; [apply made_1|]. do 3 (split; [lra|]). split; [reflexivity|]. split; [exact D|].
  split; [apply within_a; auto|]. split; [exact OT|]. split.
  { unfold ahead, q0. cbn [A1 A2 A3 s1]. rewrite R90, r0, R180, !Rplus_0_r, S3, sin_PI2. lra. }
  split; [rewrite IB; exact CQ|].
  destruct (core_sound s1 q0 (3 / 2) 0 1 (PI / 2) g q made_1 ltac:(lra) G CQ) as ((LQ & _) & _ & q2 & CL2 & F2). rewrite atan2_0 in F2 by lra.
  destruct (five q LQ) as (v1 & v2 & v3 & v4 & v5 & ->).
  intros q' CL E. unfold close in *.
  inversion CL2 as [|u1 ? ? ? H1 K1]; subst. inversion K1 as [|u2 ? ? ? H2 K2]; subst. inversion K2 as [|u3 ? ? ? H3 K3]; subst. inversion K3 as [|u4 ? ? ? H4 K4]; subst. inversion K4 as [|u5 ? ? ? H5 K5]; subst. inversion K5; subst.
  inversion CL as [|w1 ? ? ? G1 J1]; subst. inversion J1 as [|w2 ? ? ? G2 J2]; subst. inversion J2 as [|w3 ? ? ? G3 J3]; subst. inversion J3 as [|w4 ? ? ? G4 J4]; subst. inversion J4 as [|w5 ? ? ? G5 J5]; subst. inversion J5; subst.
  unfold flange in F2, E. rewrite arm_form in F2, E. cbn [fM] in E. apply (f_equal (fun f => m02 (fM f))) in F2. apply (f_equal m02) in E. cbn in F2, E.
  rewrite S3 in E. rewrite sin_PI2, cos_PI2, sin_0, cos_0 in F2.
  set (A := rad u1) in *. set (B1 := rad u2 + rad u3 + rad u4) in *. set (A' := rad w1) in *. set (B1' := rad w2 + rad w3 + rad w4) in *.
  assert (NA : Rabs (A - A') < 1 /\ Rabs (B1 - B1') < 1).
  { apply Rabs_def2 in H1, H2, H3, H4, G1, G2, G3, G4. pose proof PI_4. split; [unfold A, A'; apply rad_near|unfold B1, B1'; rewrite <- !rad_add; apply rad_near]; lra. }
  assert (X1 : cos A * sin B1 = 1) by lra. assert (X2 : cos A' * sin B1' = -1) by lra.
  pose proof (COS_bound A). pose proof (COS_bound A'). pose proof (SIN_bound B1). pose proof (SIN_bound B1').
  pose proof (cos_lip A A') as L1. pose proof (sin_lip B1 B1') as L2.
  assert (Rabs (cos A - cos A') < 1) as M1 by lra. assert (Rabs (sin B1 - sin B1') < 1) as M2 by lra. apply Rabs_def2 in M1, M2.
  destruct (ones (cos A) (sin B1)) as [[Y1 Y2]|[Y1 Y2]]; auto; destruct (ones (cos A') (- sin B1')) as [[Z1 Z2]|[Z1 Z2]]; try lra.
Qed.
