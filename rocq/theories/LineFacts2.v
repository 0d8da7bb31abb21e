(** Proofs about the trajectories of KDL: the line. *)
From Coq Require Import Reals List Bool Lra Lia.
From Verif Require Import Kdl KdlFacts KdlRot KdlRotFacts KinRepSpec AsibotSpec AsibotFacts5 KeyboardFacts7 KdlTraj LineSpec LineFacts.
Open Scope R_scope.

(** ** Axis and angle *)
Lemma axis_angle : forall m, rotation_matrix m -> regular_log m -> exists a t, GetRotAngle m = (a, t) /\ unit a /\ 0 <= t <= PI /\ Rot2 a t = m.
Proof.
  intros m RM RL. pose proof kdl_eps_pos as EP. pose proof PI_RGT_0.
  assert (B : m = mid \/ m <> mid).
  { destruct m as [a b c d e f g h i]. unfold mid.
    destruct (Req_dec a 1) as [->|N]; [|right; congruence]. destruct (Req_dec b 0) as [->|N]; [|right; congruence]. destruct (Req_dec c 0) as [->|N]; [|right; congruence].
    destruct (Req_dec d 0) as [->|N]; [|right; congruence]. destruct (Req_dec e 1) as [->|N]; [|right; congruence]. destruct (Req_dec f 0) as [->|N]; [|right; congruence].
    destruct (Req_dec g 0) as [->|N]; [|right; congruence]. destruct (Req_dec h 0) as [->|N]; [|right; congruence]. destruct (Req_dec i 1) as [->|N]; [|right; congruence]. auto. }
  destruct B as [->|NI].
  { exists (V 0 0 1), 0. rewrite GetRotAngle_id, Rot2_zero. split; [reflexivity|]. split; [unfold unit, dot; cbn; ring|]. split; [lra|reflexivity]. }
  destruct RL as [O|(S1 & S2 & S3)].
  - destruct (GetRot_generic m RM O) as (a & t & G & U & T & E). rewrite <- E in G |- *.
    assert (SK : sk (Rot2 a t) = vscale (2 * sin t) a) by (unfold sk, Rot2; vring).
    assert (TR : (tr (Rot2 a t) - 1) / 2 = cos t).
    { replace (tr (Rot2 a t)) with (3 * cos t + (1 - cos t) * dot a a) by (unfold tr, Rot2, dot; cbn [m00 m11 m22]; ring). rewrite U. field. }
    assert (SP : 0 < sin t) by (apply sin_gt_0; lra).
    assert (NS : norm (sk (Rot2 a t)) = 2 * sin t).
    { rewrite SK, norm_scale, (unit_norm a U), Rabs_pos_eq by lra. ring. }
    assert (NG : 2 * kdl_eps <= norm (sk m)).
    { destruct (comp_le_norm (sk m)) as (A & B & C). cbn [sk vx vy vz] in A, B, C.
      destruct O as [O|[O|O]]; rewrite Rabs_minus_sym in O; [|rewrite Rabs_minus_sym in O|]; lra. }
    rewrite <- E in NG. exists a, t. split; [apply GetRotAngle_Rot2; auto; lra|]. split; [auto|]. split; [lra|auto].
  - destruct (GetRot_half m RM S1 S2 S3 NI) as (a & G & U & E). exists a, PI. split; [|split; [auto|split; [lra|auto]]].
    assert (D : snd (GetRotAngle m) = 0 \/ snd (GetRotAngle m) = PI).
    { unfold GetRotAngle. rewrite S1, S2, S3, !Rminus_eq_0, Rabs_R0. replace (Rltb 0 kdl_eps) with true by (symmetry; apply Rltb_true; lra). cbn [andb].
      repeat match goal with |- context[if ?b then _ else _] => destruct b end; auto. }
    unfold GetRot in G. destruct (GetRotAngle m) as [b t]. cbn [fst snd] in *. destruct D as [-> | ->].
    + exfalso. apply (f_equal norm) in G. rewrite !norm_scale, (unit_norm a U), Rabs_R0, Rabs_pos_eq in G by lra. lra.
    + apply (f_equal (vscale (/ PI))) in G. rewrite !vscale_vscale, Rinv_l, !vscale_1 in G by lra. congruence.
Qed.

(** ** The velocity of a pose on the line *)
Lemma rot2_velocity : forall (th : R -> R) t dth a, unit a -> derivable_pt_lim th t dth ->
  velocity_of (fun u => F (Rot2 a (th u)) vzero) t (Tw vzero (vscale dth a)).
Proof.
  intros th t dth [x y z] U D. unfold unit, dot in U. cbn [vx vy vz] in U.
  assert (G : forall A B C, derivable_pt_lim (fun u => A + B * cos (th u) + C * sin (th u)) t ((- B * sin (th t) + C * cos (th t)) * dth)).
  { intros A B C. pose proof (derivable_pt_lim_comp th cos t dth _ D (derivable_pt_lim_cos (th t))) as HC.
    pose proof (derivable_pt_lim_comp th sin t dth _ D (derivable_pt_lim_sin (th t))) as HS.
    pose proof (derivable_pt_lim_plus _ _ t _ _ (derivable_pt_lim_plus _ _ t _ _ (derivable_pt_lim_const A t) (derivable_pt_lim_scal _ B t _ HC)) (derivable_pt_lim_scal _ C t _ HS)) as H.
    eapply lim_eq; [exact H|ring]. }
  assert (X : x * x = 1 - y * y - z * z) by lra.
  unfold velocity_of. cbn [fp fM vzero t_vel t_rot vx vy vz vscale].
  do 3 (split; [apply derivable_pt_lim_const|]).
  unfold Rot2. cbn [vx vy vz m00 m01 m02 m10 m11 m12 m20 m21 m22].
  assert (EX : forall f g l, (forall u, f u = g u) -> derivable_pt_lim g t l -> derivable_pt_lim f t l) by (intros f g l H K; replace f with g by (apply FunctionalExtensionality.functional_extensionality; intro; symmetry; apply H); exact K).
  split; [eapply EX; [|eapply lim_eq; [apply (G (x * x) (1 - x * x) (0))|]]; [intro u; cbn beta; ring|ring [X]]|].
  split; [eapply EX; [|eapply lim_eq; [apply (G (x * y) (- (x * y)) (- z))|]]; [intro u; cbn beta; ring|ring [X]]|].
  split; [eapply EX; [|eapply lim_eq; [apply (G (x * z) (- (x * z)) (y))|]]; [intro u; cbn beta; ring|ring [X]]|].
  split; [eapply EX; [|eapply lim_eq; [apply (G (x * y) (- (x * y)) (z))|]]; [intro u; cbn beta; ring|ring [X]]|].
  split; [eapply EX; [|eapply lim_eq; [apply (G (y * y) (1 - y * y) (0))|]]; [intro u; cbn beta; ring|ring [X]]|].
  split; [eapply EX; [|eapply lim_eq; [apply (G (y * z) (- (y * z)) (- x))|]]; [intro u; cbn beta; ring|ring [X]]|].
  split; [eapply EX; [|eapply lim_eq; [apply (G (x * z) (- (x * z)) (- y))|]]; [intro u; cbn beta; ring|ring [X]]|].
  split; [eapply EX; [|eapply lim_eq; [apply (G (y * z) (- (y * z)) (x))|]]; [intro u; cbn beta; ring|ring [X]]|].
  eapply EX; [|eapply lim_eq; [apply (G (z * z) (1 - z * z) (0))|]]; [intro u; cbn beta; ring|ring [X]].
Qed.
(** seen from a fixed frame *)
Lemma from_fixed : forall A (f : R -> frame) t c, rotation_matrix (fM A) -> velocity_of f t c ->
  velocity_of (fun u => fmul A (f u)) t (Tw (mv (fM A) (t_vel c)) (mv (fM A) (t_rot c))).
Proof.
  intros [A o] f t [v w] RM H. cbn [fM fp] in *. unfold velocity_of in H |- *. cbn [t_vel t_rot] in *. cbv zeta in *.
  assert (L : forall a b c k f g h x y z, derivable_pt_lim f t x -> derivable_pt_lim g t y -> derivable_pt_lim h t z ->
    derivable_pt_lim (fun u => a * f u + b * g u + c * h u + k) t (a * x + b * y + c * z)).
  { intros a b c k p q r x y z H1 H2 H3.
    pose proof (derivable_pt_lim_plus _ _ t _ _ (derivable_pt_lim_plus _ _ t _ _ (derivable_pt_lim_plus _ _ t _ _ (derivable_pt_lim_scal _ a t _ H1) (derivable_pt_lim_scal _ b t _ H2))
      (derivable_pt_lim_scal _ c t _ H3)) (derivable_pt_lim_const k t)) as K. eapply lim_eq; [exact K|ring]. }
  assert (L3 : forall a b c f g h x y z, derivable_pt_lim f t x -> derivable_pt_lim g t y -> derivable_pt_lim h t z ->
    derivable_pt_lim (fun u => a * f u + b * g u + c * h u) t (a * x + b * y + c * z)).
  { intros a b c p q r x y z H1 H2 H3.
    exact (derivable_pt_lim_plus _ _ t _ _ (derivable_pt_lim_plus _ _ t _ _ (derivable_pt_lim_scal _ a t _ H1) (derivable_pt_lim_scal _ b t _ H2)) (derivable_pt_lim_scal _ c t _ H3)). }
  destruct H as (X & Y & Z & H00 & H01 & H02 & H10 & H11 & H12 & H20 & H21 & H22).
  pose proof (cross_rot A w (V (m00 (fM (f t))) (m10 (fM (f t))) (m20 (fM (f t)))) RM) as C0.
  pose proof (cross_rot A w (V (m01 (fM (f t))) (m11 (fM (f t))) (m21 (fM (f t)))) RM) as C1.
  pose proof (cross_rot A w (V (m02 (fM (f t))) (m12 (fM (f t))) (m22 (fM (f t)))) RM) as C2.
  assert (VI : forall u v : vec, u = v -> vx u = vx v /\ vy u = vy v /\ vz u = vz v) by (intros u1 v1 ->; auto).
  apply VI in C0 as (C00 & C10 & C20). apply VI in C1 as (C01 & C11 & C21). apply VI in C2 as (C02 & C12 & C22).
  destruct A as [a00 a01 a02 a10 a11 a12 a20 a21 a22]. cbn in *.
  split; [exact (L _ _ _ _ _ _ _ _ _ _ X Y Z)|]. split; [exact (L _ _ _ _ _ _ _ _ _ _ X Y Z)|]. split; [exact (L _ _ _ _ _ _ _ _ _ _ X Y Z)|].
  split; [eapply lim_eq; [exact (L3 _ _ _ _ _ _ _ _ _ H00 H10 H20)|lra]|]. split; [eapply lim_eq; [exact (L3 _ _ _ _ _ _ _ _ _ H01 H11 H21)|lra]|]. split; [eapply lim_eq; [exact (L3 _ _ _ _ _ _ _ _ _ H02 H12 H22)|lra]|].
  split; [eapply lim_eq; [exact (L3 _ _ _ _ _ _ _ _ _ H00 H10 H20)|lra]|]. split; [eapply lim_eq; [exact (L3 _ _ _ _ _ _ _ _ _ H01 H11 H21)|lra]|]. split; [eapply lim_eq; [exact (L3 _ _ _ _ _ _ _ _ _ H02 H12 H22)|lra]|].
  split; [eapply lim_eq; [exact (L3 _ _ _ _ _ _ _ _ _ H00 H10 H20)|lra]|]. split; [eapply lim_eq; [exact (L3 _ _ _ _ _ _ _ _ _ H01 H11 H21)|lra]|]. eapply lim_eq; [exact (L3 _ _ _ _ _ _ _ _ _ H02 H12 H22)|lra].
Qed.
Lemma line_velocity : forall A axis angle d (r : R -> R) t dr, rigid A -> unit axis -> derivable_pt_lim r t dr ->
  velocity_of (fun u => F (mm (fM A) (Rot2 axis (r u * angle))) (vadd (fp A) (vscale (r u) d))) t (Tw (vscale dr d) (mv (fM A) (vscale (dr * angle) axis))).
Proof.
  intros A axis angle d r t dr RA U D.
  assert (D' : derivable_pt_lim (fun u => r u * angle) t (dr * angle)).
  { pose proof (derivable_pt_lim_scal r angle t dr D) as K. replace (fun u => r u * angle) with (mult_real_fct angle r) by (apply FunctionalExtensionality.functional_extensionality; intro; unfold mult_real_fct; ring).
    replace (dr * angle) with (angle * dr) by ring. exact K. }
  pose proof (from_fixed A _ t _ RA (rot2_velocity _ t _ axis U D')) as H. cbn [t_vel t_rot] in H. unfold velocity_of in H |- *. cbn [fM fp fmul t_vel t_rot] in *.
  destruct H as (_ & _ & _ & H).
  assert (P : forall a k, derivable_pt_lim (fun u => a + r u * k) t (dr * k)).
  { intros a k. pose proof (derivable_pt_lim_plus _ _ t _ _ (derivable_pt_lim_const a t) (derivable_pt_lim_scal r k t dr D)) as K.
    rewrite Rplus_0_l, Rmult_comm in K.
    replace (fun u => a + r u * k) with (plus_fct (fct_cte a) (mult_real_fct k r)) by (apply FunctionalExtensionality.functional_extensionality; intro; unfold plus_fct, fct_cte, mult_real_fct; ring). exact K. }
  split; [apply P|]. split; [apply P|]. split; [apply P|]. exact H.
Qed.

(** ** The path *)
Lemma path_facts : forall a b, rigid a -> rigid b -> measurable a b -> exists axis angle,
  unit axis /\ 0 <= angle <= PI /\ fM b = mm (fM a) (Rot2 axis angle) /\
  let d := vsub (fp b) (fp a) in let L := pt_len (path_line a b 1) in
  L = path_length a b /\ 0 <= L /\ norm d <= L /\ angle <= L /\
  (0 < L -> forall s sd, path_pos (path_line a b 1) s = F (mm (fM a) (Rot2 axis (s / L * angle))) (vadd (fp a) (vscale (s / L) d)) /\
     path_vel (path_line a b 1) s sd = Tw (vscale (sd / L) d) (mv (fM a) (vscale (sd / L * angle) axis))) /\
  path_pos (path_line a b 1) 0 = a.
Proof.
  intros a b RA RB [MD ML]. pose proof kdl_eps_pos as EP.
  destruct (axis_angle (mm (mT (fM a)) (fM b)) (rot_mm _ _ (rot_mT _ RA) RB) ML) as (axis & al & G & U & AB & E).
  exists axis, al. split; [auto|]. split; [auto|]. split; [rewrite E, <- mm_assoc, (rot_MT _ RA), mm_id_l; reflexivity|].
  intro d.
  assert (PL : path_length a b = Rmax (norm d) al).
  { unfold path_length. fold d. f_equal. unfold GetRot. rewrite G. cbn [fst snd]. rewrite norm_scale, (unit_norm axis U), Rabs_pos_eq by lra. ring. }
  assert (DN : (if Rltb (norm d) kdl_eps then 0 else norm d) = norm d).
  { destruct MD as [H|H].
    - replace d with vzero by (unfold d; rewrite H; destruct (fp b); unfold vsub, vzero; cbn; f_equal; ring). rewrite norm_of_zero. destruct (Rltb 0 kdl_eps); auto.
    - fold d in H. replace (Rltb (norm d) kdl_eps) with false; auto. symmetry. apply Rltb_false. lra. }
  assert (DS : forall x, vscale x (vscale (norm d) (normalize d)) = vscale x d).
  { intro x. destruct MD as [H|H]; [|rewrite scaled_self; auto].
    replace d with vzero by (unfold d; rewrite H; destruct (fp b); unfold vsub, vzero; cbn; f_equal; ring). rewrite norm_of_zero, vscale_vscale, Rmult_0_r. vring. }
  pose proof (norm_nonneg d) as DP. unfold path_line, mk_path. rewrite G. cbn [fst snd fM fp]. fold d. rewrite DN, !Rmult_1_r.
  destruct (negb (Reqb al 0) && Rltb (norm d) al) eqn:C.
  - apply andb_true_iff in C as [_ C]. apply Rltb_true in C. unfold path_pos, path_vel. cbn [pt_len pt_start pt_axis pt_dir pt_lin pt_rot].
    assert (AP : 0 < al) by lra.
    split; [rewrite PL, Rmax_right; lra|]. split; [lra|]. split; [lra|]. split; [lra|]. split.
    + intros _ s sd. replace (s / al * al) with s by (field; lra). replace (sd / al * al) with sd by (field; lra).
      replace (s * (1 / 1)) with s by field. replace (sd * (1 / 1)) with sd by field.
      replace (s * (norm d / al)) with (s / al * norm d) by (field; lra). replace (sd * (norm d / al)) with (sd / al * norm d) by (field; lra).
      rewrite <- !vscale_vscale, !DS. auto.
    + rewrite !Rmult_0_l, Rot2_zero, mm_id_r. destruct a as [m [x y z]]. cbn. f_equal. vring.
  - assert (AD : al <= norm d).
    { apply andb_false_iff in C as [C|C]; [apply negb_false_iff, Reqb_true in C; lra|apply Rltb_false in C; lra]. }
    destruct (Reqb (norm d) 0) eqn:Z; cbn [negb].
    + apply Reqb_true in Z. unfold path_pos, path_vel. cbn [pt_len pt_start pt_axis pt_dir pt_lin pt_rot].
      split; [rewrite PL, Rmax_left; lra|]. split; [lra|]. split; [lra|]. split; [lra|]. split; [intro; lra|].
      rewrite !Rmult_0_l, Rot2_zero, mm_id_r. destruct a as [m [x y z]]. cbn. f_equal. vring.
    + assert (Z' : 0 < norm d). { destruct DP as [|E0]; auto. rewrite <- E0 in Z. replace (Reqb 0 0) with true in Z by (symmetry; apply Reqb_true; auto). discriminate. }
      unfold path_pos, path_vel. cbn [pt_len pt_start pt_axis pt_dir pt_lin pt_rot].
      split; [rewrite PL, Rmax_left; lra|]. split; [lra|]. split; [lra|]. split; [lra|]. split.
      * intros _ s sd. replace (s * (al / norm d)) with (s / norm d * al) by (field; lra). replace (sd * (al / norm d)) with (sd / norm d * al) by (field; lra).
        replace (s * 1) with (s / norm d * norm d) by (field; lra). replace (sd * 1) with (sd / norm d * norm d) by (field; lra).
        rewrite <- !vscale_vscale, !DS. auto.
      * rewrite !Rmult_0_l, Rot2_zero, mm_id_r. destruct a as [m [x y z]]. cbn. f_equal. vring.
Qed.

(** ** The movement *)
Lemma least_zero : least_time 0 = 0.
Proof. unfold least_time. replace (Rleb 0 10) with true by (symmetry; apply Rleb_true; lra). replace (0 / 10) with 0 by field. rewrite sqrt_0. ring. Qed.
Lemma straight_ends : forall a b p, rigid a -> straight a b p -> p 0 = a /\ p 1 = b.
Proof.
  intros a b p RA (axis & angle & U & A & E & H). rewrite !H, Rmult_0_l, Rmult_1_l, Rot2_zero, mm_id_r, <- E. split.
  - destruct a as [m [x y z]]. cbn. f_equal. vring.
  - destruct b as [m [x y z]], (fp a). cbn. f_equal. vring.
Qed.
Lemma line_is_straight : forall a b D, rigid a -> rigid b -> measurable a b -> 0 < D ->
  let T := Rmax D (least_time (path_length a b)) in
  exists p r, straight a b p /\ progress r T /\ gentle (fun t => p (r t)) (10 * pace a b T) (10 * (pace a b T * pace a b T)) /\
    (forall t, t <= T -> (1 - r t) * path_length a b <= 5 * ((T - t) * (T - t))) /\
    line_seconds a b D = Some T /\
    forall t, line_pos a b D t = Some (p (r t)) /\ exists w, line_vel a b D t = Some w /\ velocity_of (fun u => p (r u)) t w.
Proof.
  intros a b D RA RB ME PD T. destruct (path_facts a b RA RB ME) as (axis & angle & U & A & E & L1 & L0 & LD & LA & PV & P0).
  unfold line_seconds, line_pos, line_vel, line_profile. set (L := pt_len (path_line a b 1)) in *. set (d := vsub (fp b) (fp a)) in *.
  set (p := fun l => F (mm (fM a) (Rot2 axis (l * angle))) (vadd (fp a) (vscale l d))).
  exists p. assert (ST : straight a b p) by (exists axis, angle; auto).
  destruct L0 as [L0|L0].
  - destruct (trap_line L D L0 PD) as (tp & t1 & t2 & k & -> & O & TL & O1 & LT & DT & K & KD & TP).
    assert (O' : 0 <= t1 <= t2) by lra. specialize (PV L0). assert (ET : tp_d tp = T) by (rewrite DT, L1; reflexivity). rewrite ET in KD.
    exists (fun t => pos0 t1 t2 (k * t) / L).
    assert (DR : forall t, derivable_pt_lim (fun t => pos0 t1 t2 (k * t) / L) t (k * vel0 t1 t2 (k * t) / L)).
    { intro t. pose proof (derivable_pt_lim_comp (fun t => k * t) (pos0 t1 t2) t k) as H.
      pose proof (derivable_pt_lim_scal (fun t => t) k t 1 (derivable_pt_lim_id t)) as H1. rewrite Rmult_1_r in H1. specialize (H _ H1 (pos0_der t1 t2 (k * t))).
      pose proof (derivable_pt_lim_scal _ (/ L) t _ H) as H2. eapply lim_eq in H2; [|instantiate (1 := k * vel0 t1 t2 (k * t) / L); field; lra].
      replace (fun t0 => pos0 t1 t2 (k * t0) / L) with (mult_real_fct (/ L) (comp (pos0 t1 t2) (fun t0 => k * t0))); [exact H2|].
      apply FunctionalExtensionality.functional_extensionality. intro. unfold mult_real_fct, comp. field. lra. }
    assert (VEL : forall t, velocity_of (fun u => p (pos0 t1 t2 (k * u) / L)) t (Tw (vscale (k * vel0 t1 t2 (k * t) / L) d) (mv (fM a) (vscale (k * vel0 t1 t2 (k * t) / L * angle) axis)))).
    { intro t. apply (line_velocity a axis angle d (fun u => pos0 t1 t2 (k * u) / L)); auto. }
    split; [auto|]. split; [split; [|split]|split; [|split; [|split]]].
    + intros t Ht. rewrite pos0_before; [unfold Rdiv; ring|lra|nra].
    + intros t Ht. assert (t1 + t2 <= k * t) by nra. rewrite pos0_after, TL by lra. field. lra.
    + intros t u Ht. pose proof (pos0_mono t1 t2 O' (k * t) (k * u) ltac:(nra)). unfold Rdiv. apply Rmult_le_compat_r; auto. left. apply Rinv_0_lt_compat. auto.
    + assert (PK : pace a b T = k). { unfold pace. rewrite <- L1, <- LT, <- KD. field. assert (0 < t1 + t2) by lra. intros Z. rewrite Z in KD. lra. }
      rewrite PK. intro t. eexists. split; [apply VEL|]. cbn [t_vel t_rot].
      pose proof (vel0_range t1 t2 O' (k * t)) as VR. set (v := vel0 t1 t2 (k * t)) in *. assert (VB : 0 <= k * v <= 10 * k) by nra.
      assert (IL : 0 < / L) by (apply Rinv_0_lt_compat; auto).
      assert (SC : forall c, 0 <= c <= L -> k * v / L * c <= 10 * k).
      { intros c Hc. replace (k * v / L * c) with (k * v * (c * / L)) by (field; lra). assert (0 <= c * / L <= 1); [|nra]. split; [nra|].
        replace 1 with (L * / L) by (field; lra). nra. }
      pose proof (norm_nonneg d). assert (V0 : 0 <= k * v / L) by (unfold Rdiv; nra). split; [|split].
      * rewrite norm_scale, Rabs_pos_eq by auto. apply SC. lra.
      * rewrite norm_rot by exact RA. rewrite norm_scale, (unit_norm axis U), Rabs_pos_eq, Rmult_1_r by nra. apply SC. lra.
      * intro h. replace (vsub _ _) with (vscale ((pos0 t1 t2 (k * t + k * h) - pos0 t1 t2 (k * t) - v * (k * h)) / L) d).
        2:{ unfold p. cbn [fp]. replace (k * (t + h)) with (k * t + k * h) by ring. generalize (pos0 t1 t2 (k * t + k * h)) (pos0 t1 t2 (k * t)). clear. intros. unfold Rdiv. vring. }
        rewrite norm_scale. pose proof (pos0_step t1 t2 O' (k * t) (k * h)) as B. fold v in B.
        set (x := pos0 t1 t2 (k * t + k * h) - pos0 t1 t2 (k * t) - v * (k * h)) in *. unfold Rdiv. rewrite Rabs_mult, (Rabs_pos_eq (/ L)) by lra.
        assert (0 <= norm d * / L <= 1). { split; [nra|]. replace 1 with (L * / L) by (field; lra). nra. }
        replace (10 * (k * k) / 2 * (h * h)) with (5 * (k * h * (k * h))) by field.
        pose proof (Rabs_pos x). replace (Rabs x * / L * norm d) with (Rabs x * (norm d * / L)) by ring. nra.
    + intros t Ht. rewrite <- L1. replace ((1 - pos0 t1 t2 (k * t) / L) * L) with (L - pos0 t1 t2 (k * t)) by (field; lra).
      pose proof (pos0_step t1 t2 O' (t1 + t2) (k * t - (t1 + t2))) as B. rewrite vel0_after, (pos0_after t1 t2 O' (t1 + t2)) in B by lra.
      replace (t1 + t2 + (k * t - (t1 + t2))) with (k * t) in B by ring. rewrite TL in B.
      replace (k * t - (t1 + t2)) with (k * (t - T)) in B by (rewrite <- KD; ring).
      match type of B with Rabs ?z <= _ => pose proof (Rle_abs (- z)) as B'; rewrite Rabs_Ropp in B' end. assert (k * (t - T) * (k * (t - T)) <= (T - t) * (T - t)).
      { replace (k * (t - T) * (k * (t - T))) with (k * k * ((T - t) * (T - t))) by ring. assert (k * k <= 1) by nra. pose proof (Rle_0_sqr (T - t)) as Q. unfold Rsqr in Q. nra. }
      lra.
    + cbn [option_map]. congruence.
    + intro t. cbn [option_map]. destruct (TP t) as [-> ->]. destruct (PV (pos0 t1 t2 (k * t)) (k * vel0 t1 t2 (k * t))) as [-> ->]. split; [reflexivity|].
      eexists. split; [reflexivity|]. apply VEL.
  - rewrite <- L0 in *. destruct (trap_still D PD) as (tp & -> & DT & TP). pose proof (norm_nonneg d) as DP. assert (NZ : norm d = 0) by lra. assert (AZ : angle = 0) by lra.
    assert (EQ : fp a = fp b).
    { destruct ME as [[H|H] _]; auto. fold d in H. pose proof kdl_eps_pos. lra. }
    assert (DZ : d = vzero) by (unfold d; rewrite EQ; destruct (fp b); unfold vsub, vzero; cbn; f_equal; ring).
    assert (PC : forall l, p l = a).
    { intro l. unfold p. rewrite AZ, DZ, Rmult_0_r, Rot2_zero, mm_id_r. destruct a as [m [x y z]]. cbn. f_equal. vring. }
    assert (ET : T = D). { unfold T. rewrite <- L1. apply Rmax_left. rewrite least_zero. lra. }
    set (r := fun t => pos0 (D / 2) (D / 2) t / (10 * (D / 2) * (D / 2))). exists r. split; [auto|].
    assert (DD : 0 < 10 * (D / 2) * (D / 2)) by nra.
    assert (CV : forall t, velocity_of (fun u => p (r u)) t (Tw vzero vzero)).
    { intro t. replace (fun u => p (r u)) with (fun _ : R => a) by (apply FunctionalExtensionality.functional_extensionality; intro; rewrite PC; reflexivity).
      unfold velocity_of. cbn. repeat split; (eapply lim_eq; [apply derivable_pt_lim_const|ring]). }
    split; [split; [|split]|split; [|split; [|split]]].
    + intros t Ht. unfold r. rewrite pos0_before by lra. unfold Rdiv. ring.
    + intros t Ht. unfold r. rewrite pos0_after by lra. field. lra.
    + intros t u Ht. pose proof (pos0_mono (D / 2) (D / 2) ltac:(lra) t u Ht). unfold r, Rdiv. apply Rmult_le_compat_r; auto. left. apply Rinv_0_lt_compat. auto.
    + assert (PK : pace a b T = 0) by (unfold pace; rewrite <- L1, least_zero; unfold Rdiv; ring). rewrite PK. intro t. exists (Tw vzero vzero). split; [auto|]. cbn [t_vel t_rot]. rewrite norm_of_zero. split; [lra|]. split; [lra|]. intro h. rewrite !PC.
      replace (vsub _ _) with vzero by (destruct (fp a); unfold vsub, vadd, vscale, vzero; cbn; f_equal; ring). rewrite norm_of_zero. pose proof (Rle_0_sqr h) as Q. unfold Rsqr in Q. lra.
    + intros t Ht. rewrite <- L1, Rmult_0_r. pose proof (Rle_0_sqr (T - t)) as Q. unfold Rsqr in Q. lra.
    + cbn [option_map]. f_equal. rewrite DT, L1. reflexivity.
    + intro t. cbn [option_map]. destruct (TP t) as [-> ->]. rewrite PC, P0. split; [reflexivity|]. eexists. split; [reflexivity|].
      replace (path_vel _ 0 0) with (Tw vzero vzero); [apply CV|]. unfold path_vel. rewrite !Rmult_0_l. f_equal; [vring|]. generalize (fM (pt_start (path_line a b 1))) (pt_axis (path_line a b 1)). clear. intros. vring.
Qed.
