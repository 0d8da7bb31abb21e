(** Proofs about the solver of ASIBOT: the Jacobians. *)
From Coq Require Import Reals Lra Lia List Bool Arith FunctionalExtensionality.
From Coquelicot Require Import Coquelicot.
From Verif Require Import Kdl KdlFacts KdlRot KdlRotFacts Trig TrigFacts KinRep KinRepSpec KinRepFacts Asibot AsibotSpec AsibotFacts.
Import ListNotations.
Open Scope R_scope.
Local Notation S := Datatypes.S.

Definition form (a0 a1 a2 a3 q1 q2 q3 q4 q5 : R) : frame :=
  let pr := a1 * sin q2 + a2 * sin (q2 + q3) + a3 * sin (q2 + q3 + q4) in
  let ph := a1 * cos q2 + a2 * cos (q2 + q3) + a3 * cos (q2 + q3 + q4) in
  F (EulerZYZ q1 (q2 + q3 + q4) q5) (V (pr * cos q1) (pr * sin q1) (ph + a0)).
Lemma sq : forall a, sin a * sin a = 1 - cos a * cos a.
Proof. intros. pose proof (sin2_cos2 a) as Q. unfold Rsqr in Q. lra. Qed.
Ltac dv q1 b := apply is_derive_Reals; auto_derive; [auto|]; pose proof (sq q1) as SQ1; pose proof (sq b) as SQ2; ring [SQ1 SQ2].
Lemma column1 : forall a0 a1 a2 a3 q1 q2 q3 q4 q5 c, nth_error (base_jacobian a1 a2 a3 q1 q2 q3 q4) 0 = Some c ->
  velocity_of (fun u => form a0 a1 a2 a3 u q2 q3 q4 q5) q1 c.
Proof. intros a0 a1 a2 a3 q1 q2 q3 q4 q5 c [= <-]. unfold velocity_of, form, EulerZYZ. cbn. repeat split; dv q1 (q2 + q3 + q4). Qed.
Lemma column2 : forall a0 a1 a2 a3 q1 q2 q3 q4 q5 c, nth_error (base_jacobian a1 a2 a3 q1 q2 q3 q4) 1 = Some c ->
  velocity_of (fun u => form a0 a1 a2 a3 q1 u q3 q4 q5) q2 c.
Proof. intros a0 a1 a2 a3 q1 q2 q3 q4 q5 c [= <-]. unfold velocity_of, form, EulerZYZ. cbn. repeat split; dv q1 (q2 + q3 + q4). Qed.
Lemma column3 : forall a0 a1 a2 a3 q1 q2 q3 q4 q5 c, nth_error (base_jacobian a1 a2 a3 q1 q2 q3 q4) 2 = Some c ->
  velocity_of (fun u => form a0 a1 a2 a3 q1 q2 u q4 q5) q3 c.
Proof. intros a0 a1 a2 a3 q1 q2 q3 q4 q5 c [= <-]. unfold velocity_of, form, EulerZYZ. cbn. repeat split; dv q1 (q2 + q3 + q4). Qed.
Lemma column4 : forall a0 a1 a2 a3 q1 q2 q3 q4 q5 c, nth_error (base_jacobian a1 a2 a3 q1 q2 q3 q4) 3 = Some c ->
  velocity_of (fun u => form a0 a1 a2 a3 q1 q2 q3 u q5) q4 c.
Proof. intros a0 a1 a2 a3 q1 q2 q3 q4 q5 c [= <-]. unfold velocity_of, form, EulerZYZ. cbn. repeat split; dv q1 (q2 + q3 + q4). Qed.
Lemma column5 : forall a0 a1 a2 a3 q1 q2 q3 q4 q5 c, nth_error (base_jacobian a1 a2 a3 q1 q2 q3 q4) 4 = Some c ->
  velocity_of (fun u => form a0 a1 a2 a3 q1 q2 q3 q4 u) q5 c.
Proof. intros a0 a1 a2 a3 q1 q2 q3 q4 q5 c [= <-]. unfold velocity_of, form, EulerZYZ. cbn. repeat split; dv q1 (q2 + q3 + q4). Qed.

(** ** A tool on a moving frame *)
Lemma lim_eq : forall f t l l', derivable_pt_lim f t l -> l = l' -> derivable_pt_lim f t l'.
Proof. intros f t l l' H <-. exact H. Qed.
Lemma lin3 : forall f g h x y z a b c t, derivable_pt_lim f t x -> derivable_pt_lim g t y -> derivable_pt_lim h t z ->
  derivable_pt_lim (fun u => f u * a + g u * b + h u * c) t (x * a + y * b + z * c).
Proof.
  intros f g h x y z a b c t F1 G1 H1. apply is_derive_Reals. apply is_derive_Reals in F1, G1, H1.
  assert (SC : forall k l v, is_derive k t l -> is_derive (fun u => k u * v) t (l * v)).
  { intros k l v K. evar_last; [apply (is_derive_mult k (fun _ => v) t l 0 K (is_derive_const v t) Rmult_comm)|]. cbn. unfold plus, mult. cbn. ring. }
  apply (is_derive_plus (V := R_NormedModule)); [apply (is_derive_plus (V := R_NormedModule))|]; apply SC; assumption.
Qed.
Lemma lin4 : forall f g h k x y z w a b c t, derivable_pt_lim f t x -> derivable_pt_lim g t y -> derivable_pt_lim h t z -> derivable_pt_lim k t w ->
  derivable_pt_lim (fun u => f u * a + g u * b + h u * c + k u) t (x * a + y * b + z * c + w).
Proof. intros. apply (derivable_pt_lim_plus (fun u => f u * a + g u * b + h u * c) k); [apply lin3; assumption|assumption]. Qed.
Lemma with_tool : forall f t c T, velocity_of f t c ->
  velocity_of (fun u => fmul (f u) T) t (Tw (vadd (t_vel c) (cross (t_rot c) (mv (fM (f t)) (fp T)))) (t_rot c)).
Proof.
  intros f t [[v0 v1 v2] [w0 w1 w2]] [T [p0 p1 p2]] (X & Y & Z & H00 & H01 & H02 & H10 & H11 & H12 & H20 & H21 & H22). cbn [t_vel t_rot vx vy vz] in *.
  unfold velocity_of. cbn.
  split; [eapply lim_eq; [apply (lin4 _ _ _ _ _ _ _ _ p0 p1 p2 t H00 H01 H02 X)|ring]|].
  split; [eapply lim_eq; [apply (lin4 _ _ _ _ _ _ _ _ p0 p1 p2 t H10 H11 H12 Y)|ring]|].
  split; [eapply lim_eq; [apply (lin4 _ _ _ _ _ _ _ _ p0 p1 p2 t H20 H21 H22 Z)|ring]|].
  split; [eapply lim_eq; [apply (lin3 _ _ _ _ _ _ (m00 T) (m10 T) (m20 T) t H00 H01 H02)|ring]|].
  split; [eapply lim_eq; [apply (lin3 _ _ _ _ _ _ (m01 T) (m11 T) (m21 T) t H00 H01 H02)|ring]|].
  split; [eapply lim_eq; [apply (lin3 _ _ _ _ _ _ (m02 T) (m12 T) (m22 T) t H00 H01 H02)|ring]|].
  split; [eapply lim_eq; [apply (lin3 _ _ _ _ _ _ (m00 T) (m10 T) (m20 T) t H10 H11 H12)|ring]|].
  split; [eapply lim_eq; [apply (lin3 _ _ _ _ _ _ (m01 T) (m11 T) (m21 T) t H10 H11 H12)|ring]|].
  split; [eapply lim_eq; [apply (lin3 _ _ _ _ _ _ (m02 T) (m12 T) (m22 T) t H10 H11 H12)|ring]|].
  split; [eapply lim_eq; [apply (lin3 _ _ _ _ _ _ (m00 T) (m10 T) (m20 T) t H20 H21 H22)|ring]|].
  split; [eapply lim_eq; [apply (lin3 _ _ _ _ _ _ (m01 T) (m11 T) (m21 T) t H20 H21 H22)|ring]|].
  eapply lim_eq; [apply (lin3 _ _ _ _ _ _ (m02 T) (m12 T) (m22 T) t H20 H21 H22)|ring].
Qed.

(** ** The columns *)
Lemma cross_anti : forall a b, cross a b = vneg (cross b a).
Proof. intros [] []. apply vec_eq; cbn; ring. Qed.
Lemma some_inj : forall A (a b : A), Some a = Some b -> a = b.
Proof. intros A a b [= E]. exact E. Qed.
Lemma base_columns : forall s q1 q2 q3 q4 q5 i c,
  nth_error (base_jacobian (A1 s) (A2 s) (A3 s) (rad q1) (rad q2) (rad q3) (rad q4)) i = Some c ->
  velocity_of (moved s [q1; q2; q3; q4; q5] i) (rad (nth i [q1; q2; q3; q4; q5] 0)) c.
Proof.
  intros s q1 q2 q3 q4 q5 i c H.
  assert (E : forall f g t, (forall u, f u = g u) -> velocity_of g t c -> velocity_of f t c) by (intros f g t K V; replace f with g by (apply functional_extensionality; intros; symmetry; apply K); exact V).
  destruct i as [|[|[|[|[|i]]]]]; cbn [nth].
  - eapply E; [intros u; unfold moved; cbn [Nat.eqb]; apply arm_form|]. apply column1. exact H.
  - eapply E; [intros u; unfold moved; cbn [Nat.eqb]; apply arm_form|]. apply (column2 (A0 s) (A1 s) (A2 s) (A3 s) (rad q1) (rad q2) (rad q3) (rad q4) (rad q5) c H).
  - eapply E; [intros u; unfold moved; cbn [Nat.eqb]; apply arm_form|]. apply (column3 (A0 s) (A1 s) (A2 s) (A3 s) (rad q1) (rad q2) (rad q3) (rad q4) (rad q5) c H).
  - eapply E; [intros u; unfold moved; cbn [Nat.eqb]; apply arm_form|]. apply (column4 (A0 s) (A1 s) (A2 s) (A3 s) (rad q1) (rad q2) (rad q3) (rad q4) (rad q5) c H).
  - eapply E; [intros u; unfold moved; cbn [Nat.eqb]; apply arm_form|]. apply (column5 (A0 s) (A1 s) (A2 s) (A3 s) (rad q1) (rad q2) (rad q3) (rad q4) (rad q5) c H).
  - cbn in H. destruct i; discriminate.
Qed.
Theorem base_velocities : forall svd s q, length q = 5%nat -> hasFrame s = false ->
  exists cols, jacobian svd s q BASE_FRAME = Some (Some cols) /\ length cols = 5%nat /\
  forall i c, nth_error cols i = Some c -> velocity_of (moved s q i) (rad (nth i q 0)) c.
Proof.
  intros svd s q L HF. destruct (five q L) as (q1 & q2 & q3 & q4 & q5 & ->). unfold jacobian. rewrite HF, !rad_deg. eexists. split; [reflexivity|]. split; [reflexivity|].
  intros i c H. apply base_columns. exact H.
Qed.
Lemma moved_here : forall s q i, moved s q i (rad (nth i q 0)) = flange s q.
Proof.
  intros s q i. do 6 (destruct q as [|? q]; [try reflexivity|]); [|reflexivity].
  unfold moved. cbn [flange]. do 5 (destruct i as [|i]; [reflexivity|]). destruct i; reflexivity.
Qed.
Lemma skew_cross : forall m p w, rotation_matrix m -> mv (mm m (mm (skew p) (mT m))) w = cross (mv m p) w.
Proof.
  intros m p w RM. destruct (cofs m RM) as (C1 & C2 & C3 & C4 & C5 & C6 & C7 & C8 & C9).
  destruct m as [x00 x01 x02 x10 x11 x12 x20 x21 x22], p as [p0 p1 p2], w as [w0 w1 w2]. cbn in *.
  apply vec_eq; cbn.
  - transitivity ((x20 * p0 + x21 * p1 + x22 * p2) * 0 * w0 + (p0 * (x02 * x11 - x01 * x12) + p1 * (x00 * x12 - x02 * x10) + p2 * (x01 * x10 - x00 * x11)) * w1 + (p0 * (x02 * x21 - x01 * x22) + p1 * (x00 * x22 - x02 * x20) + p2 * (x01 * x20 - x00 * x21)) * w2); [ring|].
    replace (x02 * x11 - x01 * x12) with (- x20) by lra. replace (x00 * x12 - x02 * x10) with (- x21) by lra. replace (x01 * x10 - x00 * x11) with (- x22) by lra.
    replace (x02 * x21 - x01 * x22) with x10 by lra. replace (x00 * x22 - x02 * x20) with x11 by lra. replace (x01 * x20 - x00 * x21) with x12 by lra. ring.
  - transitivity ((p0 * (x12 * x01 - x11 * x02) + p1 * (x10 * x02 - x12 * x00) + p2 * (x11 * x00 - x10 * x01)) * w0 + (p0 * (x12 * x21 - x11 * x22) + p1 * (x10 * x22 - x12 * x20) + p2 * (x11 * x20 - x10 * x21)) * w2); [ring|].
    replace (x12 * x01 - x11 * x02) with x20 by lra. replace (x10 * x02 - x12 * x00) with x21 by lra. replace (x11 * x00 - x10 * x01) with x22 by lra.
    replace (x12 * x21 - x11 * x22) with (- x00) by lra. replace (x10 * x22 - x12 * x20) with (- x01) by lra. replace (x11 * x20 - x10 * x21) with (- x02) by lra. ring.
  - transitivity ((p0 * (x22 * x01 - x21 * x02) + p1 * (x20 * x02 - x22 * x00) + p2 * (x21 * x00 - x20 * x01)) * w0 + (p0 * (x22 * x11 - x21 * x12) + p1 * (x20 * x12 - x22 * x10) + p2 * (x21 * x10 - x20 * x11)) * w1); [ring|].
    replace (x22 * x01 - x21 * x02) with (- x10) by lra. replace (x20 * x02 - x22 * x00) with (- x11) by lra. replace (x21 * x00 - x20 * x01) with (- x12) by lra.
    replace (x22 * x11 - x21 * x12) with x00 by lra. replace (x20 * x12 - x22 * x10) with x01 by lra. replace (x21 * x10 - x20 * x11) with x02 by lra. ring.
Qed.
Theorem tool_velocities : forall svd s q, length q = 5%nat -> svd_ok svd -> hasFrame s = true -> fM (frameTcp s) = mid -> 0 < ahead s q -> regular_log (fM (flange s q)) ->
  exists cols, jacobian svd s q BASE_FRAME = Some (Some cols) /\ length cols = 5%nat /\
  forall i c, nth_error cols i = Some c -> velocity_of (fun u => fmul (moved s q i u) (frameTcp s)) (rad (nth i q 0)) c.
Proof.
  intros svd s q L SV HF TM AH RG.
  assert (TS : tool s = frameTcp s) by (unfold tool; rewrite HF; reflexivity).
  assert (FT : fM (fmul (flange s q) (tool s)) = fM (flange s q)) by (rewrite TS; unfold fmul; cbn [fM]; rewrite TM; apply mat_eq; cbn; ring).
  destruct (forward_pose svd s q L SV AH) as (x & FK & DX); [rewrite TS; unfold rigid; rewrite TM; apply rot_id|exact RG|rewrite FT; exact RG|].
  unfold jacobian. rewrite HF, FK, (to_matrix _ _ DX), FT, TS in *.
  destruct (five q L) as (q1 & q2 & q3 & q4 & q5 & ->). rewrite !rad_deg. cbv zeta. eexists. split; [reflexivity|]. split; [reflexivity|].
  set (b := base_jacobian _ _ _ _ _ _ _). intros i c H. rewrite nth_error_map in H. destruct (nth_error b i) as [cb|] eqn:E; [|discriminate]. apply some_inj in H. subst c.
  pose proof (base_columns s q1 q2 q3 q4 q5 i cb E) as V.
  pose proof (with_tool _ _ _ (frameTcp s) V) as W. rewrite moved_here in W.
  replace (vneg (mv (mm (fM (flange s [q1; q2; q3; q4; q5])) (mm (skew (fp (frameTcp s))) (mT (fM (flange s [q1; q2; q3; q4; q5]))))) (t_rot cb)))
    with (cross (t_rot cb) (mv (fM (flange s [q1; q2; q3; q4; q5])) (fp (frameTcp s)))).
  - exact W.
  - rewrite skew_cross by apply arm_rigid. apply cross_anti.
Qed.
Lemma trig_minus : forall b a q4, b = a + q4 -> sin q4 = sin b * cos a - cos b * sin a /\ cos q4 = cos b * cos a + sin b * sin a.
Proof. intros b a q4 E. replace q4 with (b - a) by lra. rewrite sin_minus, cos_minus. split; ring. Qed.
Lemma tcp_columns : forall s q1 q2 q3 q4 q5,
  tcp_jacobian (A1 s) (A2 s) (A3 s) q2 q3 q4 q5 =
  map (fun c => let r := mT (EulerZYZ q1 (q2 + q3 + q4) q5) in Tw (mv r (t_vel c)) (mv r (t_rot c))) (base_jacobian (A1 s) (A2 s) (A3 s) q1 q2 q3 q4).
Proof.
  intros. unfold tcp_jacobian, base_jacobian. cbv zeta. cbn [map].
  destruct (trig_minus (q2 + q3 + q4) (q2 + q3) q4 ltac:(lra)) as [S4 C4]. destruct (trig_minus (q2 + q3 + q4) q2 (q3 + q4) ltac:(lra)) as [S34 C34].
  rewrite S4, C4, S34, C34. pose proof (sq q1) as SQ1. pose proof (sq (q2 + q3 + q4)) as SQ2.
  repeat (f_equal; [f_equal; apply vec_eq; cbn; ring [SQ1 SQ2]|]). f_equal; f_equal; apply vec_eq; cbn; ring [SQ1 SQ2].
Qed.
Theorem tcp_velocities : forall svd s q, length q = 5%nat -> hasFrame s = false ->
  exists cols, jacobian svd s q TCP_FRAME = Some (Some cols) /\ length cols = 5%nat /\
  forall i c, nth_error cols i = Some c -> exists v, velocity_of (moved s q i) (rad (nth i q 0)) v /\
    t_vel c = mv (mT (fM (flange s q))) (t_vel v) /\ t_rot c = mv (mT (fM (flange s q))) (t_rot v).
Proof.
  intros svd s q L HF. destruct (five q L) as (q1 & q2 & q3 & q4 & q5 & ->). unfold jacobian. rewrite HF, !rad_deg. eexists. split; [reflexivity|]. split; [reflexivity|].
  rewrite (tcp_columns s (rad q1)). intros i c H. rewrite nth_error_map in H. set (b := base_jacobian _ _ _ _ _ _ _) in *. destruct (nth_error b i) as [cb|] eqn:E; [|discriminate].
  apply some_inj in H. subst c. exists cb. split; [apply base_columns; exact E|]. cbn [flange]. rewrite arm_form. split; reflexivity.
Qed.
