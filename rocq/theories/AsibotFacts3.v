(** Proofs about the solver of ASIBOT: what the inverse kinematics returns. *)
From Coq Require Import Reals Lra Lia List Bool Arith.
From Verif Require Import Kdl KdlFacts KdlRot KdlRotFacts Trig TrigFacts KinRep KinRepSpec KinRepFacts KinRepFacts2 KinRepFacts3 Asibot AsibotSpec AsibotFacts AsibotFacts2.
Import ListNotations.
Open Scope R_scope.
Local Notation S := Datatypes.S.

(** ** Decoding *)
Lemma zyz_bounds : forall m, rotation_matrix m -> let '(a, b, g) := GetEulerZYZ m in 0 <= b <= PI /\ - PI < g <= PI.
Proof.
  intros m RM. pose proof PI_RGT_0. unfold GetEulerZYZ. destruct (Rltb (1 - tiny) (Rabs (m22 m))).
  - destruct (Rltb 0 (m22 m)); lra.
  - split; [|apply atan2_bound]. destruct (rows_cols m RM) as [(A1 & A2 & A3 & A4 & A5 & A6) _].
    apply atan2_upper; [apply sqrt_pos|]. rewrite sqrt_sqrt by nra. lra.
Qed.
Lemma decode_yz : forall p r, exists m, decodePose 0 1 CARTESIAN EULER_YZ RADIANS (fun k => if Nat.eqb k 0 then three p ++ three r else []) = Some (true, m) /\
  m 1%nat = three p ++ (let a := GetEulerZYZ (rot_of r) in [snd (fst a); snd a]).
Proof.
  intros p r. destruct (runs_some _ _ _ _ (decode_run (fun k => if Nat.eqb k 0 then three p ++ three r else []) 0 1 CARTESIAN EULER_YZ RADIANS eq_refl ltac:(cbn; lia) I)) as (x & m & E & -> & E2 & _).
  exists m. split; [exact E|]. rewrite E2. destruct r. reflexivity.
Qed.
Lemma denotes_split : forall x h, denotes x h -> exists r, x = three (fp h) ++ three r /\ rot_of r = fM h.
Proof.
  intros x h D. pose proof (to_frame x h D) as TF. destruct D as (a & t & _ & _ & -> & _).
  exists (V (t * vx a) (t * vy a) (t * vz a)). split; [reflexivity|]. rewrite <- TF. reflexivity.
Qed.

(** ** The solution for a position and two angles *)
Definition core (s : asibot) (guess : list R) (x y z oy oz : R) : option (option (list R)) :=
  match closed_form s x y z oy with
  | None => Some None
  | Some c =>
      match configure (qMin s) (qMax s) (Some (radToDeg (s_oz c))) (option_map radToDeg (s_t1u c))
              (option_map radToDeg (s_t1d c)) (option_map radToDeg (s_t2 c)) (option_map radToDeg (s_t3u c))
              (option_map radToDeg (s_t3d c)) (Some (radToDeg oz)) with
      | None => None
      | Some (false, _) => Some None
      | Some (true, ps) =>
          match findOptimal guess ps with
          | None => None
          | Some None => Some None
          | Some (Some p) => Some (Some (map (fun o => match o with Some v => v | None => 0 end) (p_joints p)))
          end
      end
  end.
Lemma deg_lin : forall a b c, radToDeg (a - b - c) = radToDeg a - radToDeg b - radToDeg c.
Proof. intros. unfold radToDeg. field. apply PI_neq0. Qed.
Lemma deg_lin2 : forall a b c, radToDeg (a - b + c) = radToDeg a - radToDeg b + radToDeg c.
Proof. intros. unfold radToDeg. field. apply PI_neq0. Qed.
Lemma deg_back : forall x, x = radToDeg x / 180 * PI.
Proof. intros. unfold radToDeg. field. apply PI_neq0. Qed.
Lemma deg_bound : forall x a b, a * PI <= x <= b * PI -> a * 180 <= radToDeg x <= b * 180.
Proof.
  intros x a b [H1 H2]. pose proof PI_RGT_0 as P. rewrite (deg_back x) in H1, H2. apply Rmult_le_reg_r in H1, H2; lra.
Qed.
Lemma deg_bound_l : forall x a b, a * PI < x <= b * PI -> a * 180 < radToDeg x <= b * 180.
Proof.
  intros x a b [H1 H2]. pose proof PI_RGT_0 as P. rewrite (deg_back x) in H1, H2. apply Rmult_le_reg_r in H2; [|lra]. apply Rmult_lt_reg_r in H1; lra.
Qed.
Lemma unwrap : forall l, map (fun o : option R => match o with Some v => v | None => 0 end) (map Some l) = l.
Proof. intros. rewrite map_map, map_id. reflexivity. Qed.
(** what the solution consists of *)
Lemma core_spec : forall s guess x y z oy oz, well_made s -> 0 <= oy <= PI -> - PI < oz <= PI ->
  (core s guess x y z oy oz = Some None /\ forall c, closed_form s x y z oy = Some c -> s_t1u c = None) \/
  exists t1u t1d t2,
    let prW := sqrt (x * x + y * y) - A3 s * sin oy in let phW := z - A0 s - A3 s * cos oy in
    let cs := cand (radToDeg (atan2 y x)) (radToDeg t1u) (radToDeg t1d) (radToDeg t2) (radToDeg (oy - t1u - t2)) (radToDeg (oy - t1d + t2)) (radToDeg oz) in
    let ps := map (valid_pose (qMin s) (qMax s)) cs in
    closed_form s x y z oy <> None /\
    wrist s t1u t2 prW phW /\ wrist s t1d (- t2) prW phW /\ - PI < t1u <= PI /\ - PI < t1d <= PI /\ 0 <= t2 <= PI /\
    (forall c o, In (c, o) cs -> length c = 5%nat /\ Forall (fun v => -540 < v <= 540) c) /\
    core s guess x y z oy oz = if existsb p_valid ps then match findOptimal guess ps with
      | None => None | Some None => Some None | Some (Some p) => Some (Some (map (fun o => match o with Some v => v | None => 0 end) (p_joints p))) end else Some None.
Proof.
  intros s guess x y z oy oz [L1 L2] OY OZ. unfold core. destruct (closed_form s x y z oy) as [c|] eqn:CF; [|left; split; [reflexivity|discriminate]].
  destruct (closed_spec s x y z oy c CF) as [(t1u & t1d & t2 & -> & W1 & W2 & B1 & B2 & B3)|[N1 N2]].
  - right. exists t1u, t1d, t2. cbv zeta. split; [discriminate|]. split; [exact W1|]. split; [exact W2|]. split; [auto|]. split; [auto|]. split; [auto|]. split.
    + pose proof PI_RGT_0. pose proof (atan2_bound y x) as AB.
      pose proof (deg_bound_l (atan2 y x) (-1) 1 ltac:(lra)). pose proof (deg_bound_l t1u (-1) 1 ltac:(lra)). pose proof (deg_bound_l t1d (-1) 1 ltac:(lra)).
      pose proof (deg_bound t2 0 1 ltac:(lra)). pose proof (deg_bound oy 0 1 ltac:(lra)). pose proof (deg_bound_l oz (-1) 1 ltac:(lra)).
      intros c o I. cbn [cand In] in I. rewrite deg_lin, deg_lin2 in I.
      destruct I as [I|[I|[I|[I|[]]]]]; injection I as <- _; (split; [reflexivity|]); repeat constructor; lra.
    + cbn [s_oz s_t1u s_t1d s_t2 s_t3u s_t3d option_map]. rewrite configure_spec by (auto; rewrite deg_lin, deg_lin2; ring). cbv zeta.
      destruct (existsb p_valid _); reflexivity.
  - left. split; [|intros c' [= <-]; exact N1]. destruct (configure_nan (qMin s) (qMax s) (Some (radToDeg (s_oz c))) (option_map radToDeg (s_t1u c))
              (option_map radToDeg (s_t1d c)) (option_map radToDeg (s_t2 c)) (option_map radToDeg (s_t3u c))
              (option_map radToDeg (s_t3d c)) (Some (radToDeg oz)) L1 L2) as (ps & ->); [rewrite N1; reflexivity|rewrite N2; reflexivity|reflexivity].
Qed.

Lemma normalize_range : forall v, -540 < v <= 540 -> -180 < normalizeAngle v <= 180.
Proof.
  intros v B. unfold normalizeAngle. destruct (Rltb 180 v) eqn:E1; [apply Rltb_true in E1; lra|]. apply Rltb_false in E1.
  destruct (Rleb v (-180)) eqn:E2; [apply Rleb_true in E2; lra|].
  destruct (Rltb (Rabs v) deg_eps); [lra|]. destruct (Rle_or_lt v (-180)) as [C|C]; [|lra].
  apply Rleb_true in C. congruence.
Qed.
Theorem core_sound : forall s guess x y z oy oz q, well_made s -> 0 <= oy <= PI -> - PI < oz <= PI ->
  core s guess x y z oy oz = Some (Some q) ->
  within_tolerance q (qMin s) (qMax s) /\ one_turn q /\
  exists q', close q' q /\ flange s q' = F (EulerZYZ (atan2 y x) oy oz) (V x y z).
Proof.
  intros s guess x y z oy oz q WM OY OZ H. destruct (core_spec s guess x y z oy oz WM OY OZ) as [[N _]|(t1u & t1d & t2 & CF & W1 & W2 & B1 & B2 & B3 & RG & E)]; [congruence|].
  rewrite E in H. clear E. destruct (existsb p_valid _); [|discriminate]. destruct (findOptimal guess _) as [[p|]|] eqn:FO; try discriminate. injection H as <-.
  apply choice in FO. destruct FO as (IN0 & V & _). apply in_map_iff in IN0. destruct IN0 as ([c o] & <- & IC).
  destruct (RG c o IC) as [LC FC]. destruct WM as [L1 L2].
  unfold valid_pose in *. cbn [p_joints p_valid fst] in *. rewrite unwrap.
  destruct (in_limits (map normalizeAngle c) (qMin s) (qMax s)) as (b & EB & HB); [rewrite map_length; lia..|]. rewrite EB in V. subst b.
  split; [|split].
  - split; [rewrite map_length; exact LC|]. apply HB. reflexivity.
  - unfold one_turn. apply Forall_map. eapply Forall_impl; [|exact FC]. intros v Hv. apply normalize_range. exact Hv.
  - destruct (normalized_all c) as (q' & T & CL). exists q'. split; [exact CL|]. rewrite (flange_turns s c q' T).
    apply (cand_flange s x y z oy oz t1u t1d t2 W1 W2 c o IC).
Qed.

(** ** Completeness *)
Lemma wrist_unique : forall s a b a' b' pr ph, A1 s <> 0 -> A2 s <> 0 -> wrist s a b pr ph -> wrist s a' b' pr ph ->
  cos b = cos b' /\ (pr * pr + ph * ph <> 0 -> sin b = sin b' -> sin a = sin a' /\ cos a = cos a').
Proof.
  intros s a b a' b' pr ph N1 N2 [U1 U2] [V1 V2].
  assert (LAW : forall a b, wrist s a b pr ph -> pr * pr + ph * ph = A1 s * A1 s + A2 s * A2 s + 2 * A1 s * A2 s * cos b).
  { clear. intros a b [<- <-]. rewrite sin_plus, cos_plus. pose proof (sin2_cos2 a) as Q1. pose proof (sin2_cos2 b) as Q2. unfold Rsqr in *.
    transitivity ((sin a * sin a + cos a * cos a) * (A1 s * A1 s + A2 s * A2 s * (sin b * sin b + cos b * cos b) + 2 * A1 s * A2 s * cos b)); [ring|rewrite Q1, Q2; ring]. }
  assert (C : cos b = cos b').
  { pose proof (LAW a b (conj U1 U2)). pose proof (LAW a' b' (conj V1 V2)). apply Rmult_eq_reg_l with (2 * A1 s * A2 s); [lra|].
    intros E. apply Rmult_integral in E. destruct E as [E|E]; [apply Rmult_integral in E; destruct E; lra|lra]. }
  split; [exact C|]. intros NZ SB. rewrite sin_plus in U1, V1. rewrite cos_plus in U2, V2. rewrite <- C, <- SB in V1, V2.
  set (k := A1 s + A2 s * cos b). set (l := A2 s * sin b).
  assert (D : k * k + l * l <> 0).
  { intros E. apply NZ. pose proof (sin2_cos2 b) as Q2. unfold Rsqr in Q2. rewrite (LAW a b) by (split; [rewrite sin_plus; exact U1|rewrite cos_plus; exact U2]). rewrite <- E. unfold k, l.
    transitivity (A1 s * A1 s + A2 s * A2 s * (sin b * sin b + cos b * cos b) + 2 * A1 s * A2 s * cos b); [rewrite Q2; ring|ring]. }
  assert (X1 : k * (sin a - sin a') + l * (cos a - cos a') = 0) by (unfold k, l; lra).
  assert (X2 : k * (cos a - cos a') - l * (sin a - sin a') = 0) by (unfold k, l; lra).
  split; (apply Rminus_diag_uniq; apply Rmult_eq_reg_l with (k * k + l * l); [|exact D]); rewrite Rmult_0_r.
  - transitivity (k * (k * (sin a - sin a') + l * (cos a - cos a')) - l * (k * (cos a - cos a') - l * (sin a - sin a'))); [ring|rewrite X1, X2; ring].
  - transitivity (l * (k * (sin a - sin a') + l * (cos a - cos a')) + k * (k * (cos a - cos a') - l * (sin a - sin a'))); [ring|rewrite X1, X2; ring].
Qed.
(** the closed form exists for a pose that can be reached *)
Lemma reach2 : forall a b t u, 0 <= a -> 0 <= b -> (a * sin t + b * sin u) * (a * sin t + b * sin u) + (a * cos t + b * cos u) * (a * cos t + b * cos u) <= (a + b) * (a + b).
Proof.
  intros a b t u A B. pose proof (sin2_cos2 t) as Q1. pose proof (sin2_cos2 u) as Q2. unfold Rsqr in *.
  pose proof (COS_bound (t - u)) as [_ C]. rewrite cos_minus in C.
  replace ((a * sin t + b * sin u) * (a * sin t + b * sin u) + (a * cos t + b * cos u) * (a * cos t + b * cos u))
    with (a * a * (sin t * sin t + cos t * cos t) + b * b * (sin u * sin u + cos u * cos u) + 2 * (a * b) * (cos t * cos u + sin t * sin u)) by ring.
  rewrite Q1, Q2. assert (0 <= a * b) by (apply Rmult_le_pos; auto). nra.
Qed.
Lemma norm_add : forall x y c u r, 0 <= c -> 0 <= r -> x * x + y * y <= r * r -> (x + c * sin u) * (x + c * sin u) + (y + c * cos u) * (y + c * cos u) <= (r + c) * (r + c).
Proof.
  intros x y c u r C R0 H. pose proof (sin2_cos2 u) as Q. unfold Rsqr in Q.
  assert (K : x * sin u + y * cos u <= r).
  { destruct (Rle_or_lt (x * sin u + y * cos u) r) as [|N]; [assumption|exfalso].
    assert ((x * sin u + y * cos u) * (x * sin u + y * cos u) <= x * x + y * y).
    { pose proof (Rle_0_sqr (x * cos u - y * sin u)) as SQ. unfold Rsqr in SQ.
      assert ((x * sin u + y * cos u) * (x * sin u + y * cos u) + (x * cos u - y * sin u) * (x * cos u - y * sin u) = x * x + y * y).
      { transitivity ((x * x + y * y) * (sin u * sin u + cos u * cos u)); [ring|rewrite Q; ring]. } lra. }
    nra. }
  replace ((x + c * sin u) * (x + c * sin u) + (y + c * cos u) * (y + c * cos u)) with (x * x + y * y + 2 * c * (x * sin u + y * cos u) + c * c * (sin u * sin u + cos u * cos u)) by ring.
  rewrite Q. nra.
Qed.
Lemma closed_total : forall s x y z oy a b, 0 < A1 s -> 0 < A2 s -> 0 <= A3 s ->
  let prW := sqrt (x * x + y * y) - A3 s * sin oy in let phW := z - A0 s - A3 s * cos oy in
  wrist s a b prW phW -> prW * prW + phW * phW <> 0 -> exists c, closed_form s x y z oy = Some c /\ s_t1u c <> None.
Proof.
  intros s x y z oy a b P1 P2 P3 prW phW W NZ. destruct W as [W1 W2].
  pose proof (reach2 (A1 s) (A2 s) a (a + b) ltac:(lra) ltac:(lra)) as R2. rewrite W1, W2 in R2.
  pose proof (norm_add prW phW (A3 s) oy (A1 s + A2 s) P3 ltac:(lra) R2) as R3.
  assert (E1 : Rltb (A1 s + A2 s + A3 s) (sqrt (sqrt (x * x + y * y) * sqrt (x * x + y * y) + (z - A0 s) * (z - A0 s))) = false).
  { apply Rltb_false. rewrite <- (sqrt_square (A1 s + A2 s + A3 s)) by lra. apply sqrt_le_1_alt.
    replace (sqrt (x * x + y * y)) with (prW + A3 s * sin oy) by (unfold prW; ring). replace (z - A0 s) with (phW + A3 s * cos oy) by (unfold phW; ring). exact R3. }
  unfold closed_form. cbv zeta.
  rewrite E1. fold prW phW.
  assert (E2 : Rltb (A1 s + A2 s) (sqrt (phW * phW + prW * prW)) = false).
  { apply Rltb_false. rewrite <- (sqrt_square (A1 s + A2 s)) by lra. apply sqrt_le_1_alt. lra. }
  rewrite E2.
  assert (CT : fdiv (phW * phW + prW * prW - A1 s * A1 s - A2 s * A2 s) (2 * A1 s * A2 s) = Some (cos b)).
  { unfold fdiv. destruct (Reqb (2 * A1 s * A2 s) 0) eqn:Z; [apply Reqb_true in Z; nra|]. f_equal.
    rewrite <- W1, <- W2. rewrite sin_plus, cos_plus. pose proof (sin2_cos2 a) as Q1. pose proof (sin2_cos2 b) as Q2. unfold Rsqr in *.
    apply Rmult_eq_reg_r with (2 * A1 s * A2 s); [|nra]. unfold Rdiv. rewrite Rmult_assoc, Rinv_l by nra. rewrite Rmult_1_r.
    transitivity ((sin a * sin a + cos a * cos a) * (A1 s * A1 s + A2 s * A2 s * (sin b * sin b + cos b * cos b) + 2 * A1 s * A2 s * cos b) - A1 s * A1 s - A2 s * A2 s); [ring|rewrite Q1, Q2; ring]. }
  rewrite CT. assert (E3 : osqrt (1 - cos b * cos b) = Some (sqrt (1 - cos b * cos b))).
  { unfold osqrt. destruct (Rltb (1 - cos b * cos b) 0) eqn:Z; [apply Rltb_true in Z; pose proof (sin2_cos2 b) as Q; unfold Rsqr in Q; nra|reflexivity]. }
  rewrite E3. cbn [omap2]. eexists. split; [reflexivity|]. cbn [s_t1u].
  unfold fdiv. destruct (Reqb (phW * phW + prW * prW) 0) eqn:Z; [apply Reqb_true in Z; lra|]. cbn [omap2]. discriminate.
Qed.
Lemma zyz_unique : forall a b g a' b' g', 0 < sin b -> EulerZYZ a' b' g' = EulerZYZ a b g ->
  exists k, (k = 1 \/ k = -1) /\ cos b' = cos b /\ sin b' = k * sin b /\ cos a' = k * cos a /\ sin a' = k * sin a /\ cos g' = k * cos g /\ sin g' = k * sin g.
Proof.
  intros a b g a' b' g' P E.
  assert (M22 : cos b' = cos b) by (apply (f_equal m22) in E; cbn in E; ring_simplify in E; lra).
  assert (M02 : cos a' * sin b' = cos a * sin b) by (apply (f_equal m02) in E; cbn in E; ring_simplify in E; lra).
  assert (M12 : sin a' * sin b' = sin a * sin b) by (apply (f_equal m12) in E; cbn in E; ring_simplify in E; lra).
  assert (M20 : sin b' * cos g' = sin b * cos g) by (apply (f_equal m20) in E; cbn in E; ring_simplify in E; lra).
  assert (M21 : sin b' * sin g' = sin b * sin g) by (apply (f_equal m21) in E; cbn in E; ring_simplify in E; lra).
  assert (SS : (sin b' - sin b) * (sin b' + sin b) = 0).
  { pose proof (sin2_cos2 b') as Q1. pose proof (sin2_cos2 b) as Q2. unfold Rsqr in *. rewrite M22 in Q1. nra. }
  apply Rmult_integral in SS. destruct SS as [SS|SS].
  - exists 1. assert (SB : sin b' = sin b) by lra. rewrite SB in *. repeat split; auto; try lra; apply Rmult_eq_reg_r with (sin b); lra.
  - exists (-1). assert (SB : sin b' = - sin b) by lra. rewrite SB in *. repeat split; auto; try lra; apply Rmult_eq_reg_r with (sin b); lra.
Qed.
Definition eqv (a b : R) : Prop := sin a = sin b /\ cos a = cos b.
Lemma eqv_minus : forall a b a' b', eqv a a' -> eqv b b' -> eqv (a - b) (a' - b').
Proof. intros a b a' b' [A B] [C D]. unfold eqv. rewrite !sin_minus, !cos_minus, A, B, C, D. auto. Qed.
Lemma eqv_neg : forall a b, eqv (- a) b -> eqv a (- b).
Proof. intros a b [A B]. unfold eqv. rewrite sin_neg, cos_neg, <- A, <- B, sin_neg, cos_neg. split; ring. Qed.
Lemma eqv_half : forall a b, sin a = - sin b -> cos a = - cos b -> eqv a (b + PI).
Proof. intros a b A B. unfold eqv. rewrite neg_sin, neg_cos. auto. Qed.
Lemma eqv_norm : forall v c, -180 < v <= 180 -> -540 < c <= 540 -> eqv (rad v) (rad c) -> Rabs (v - normalizeAngle c) < / 1000.
Proof.
  intros v c BV BC [E1 E2]. destruct (normalized c) as (b & ST & NB). pose proof PI_RGT_0 as P.
  destruct (same_turn_trig c b ST) as [T1 T2]. enough (v = b) by (subst; exact NB).
  assert (BB : -180 < b <= 180).
  { clear - ST NB BC. unfold normalizeAngle in NB. destruct (Rltb 180 c) eqn:X1.
    - apply Rltb_true in X1. destruct ST as [->|[->| ->]]; [exfalso|lra|exfalso]; apply Rabs_def2 in NB; lra.
    - apply Rltb_false in X1. destruct (Rleb c (-180)) eqn:X2.
      + apply Rleb_true in X2. destruct ST as [->|[->| ->]]; [exfalso|exfalso|lra]; apply Rabs_def2 in NB; lra.
      + assert (X3 : -180 < c) by (destruct (Rlt_or_le (-180) c) as [|Z]; [auto|apply Rleb_true in Z; congruence]).
        assert (Y : Rabs (b - c) < / 500).
        { destruct (Rltb (Rabs c) deg_eps) eqn:X4; [|lra]. apply Rltb_true in X4. unfold deg_eps in X4. apply Rabs_def2 in NB, X4. apply Rabs_def1; lra. }
        apply Rabs_def2 in Y. destruct ST as [->|[->| ->]]; lra. }
  assert (K : rad v = rad b).
  { apply angle_unique; [unfold rad; split; [|]; nra..|congruence|congruence]. }
  unfold rad in K. apply Rmult_eq_reg_r with (PI / 180); lra.
Qed.
Lemma valid_close : forall lo hi q0 c o, length lo = 5%nat -> length hi = 5%nat -> within q0 lo hi -> length c = 5%nat ->
  Forall2 (fun v n => Rabs (v - n) < / 1000) q0 (map normalizeAngle c) -> p_valid (valid_pose lo hi (c, o)) = true.
Proof.
  intros lo hi q0 c o L1 L2 [LQ W] LC F. unfold valid_pose. cbn [p_valid fst snd].
  destruct (in_limits (map normalizeAngle c) lo hi) as (b & E & HB); [rewrite map_length; lia..|]. rewrite E. apply HB.
  intros i n l h Hn Hl Hh. assert (exists v, nth_error q0 i = Some v /\ Rabs (v - n) < / 1000) as (v & Hv & D).
  { clear - F Hn. revert i Hn. induction F as [|v n' q0 ns H F IH]; intros [|i] Hn; try discriminate; cbn in *; [injection Hn as <-; eauto|eauto]. }
  specialize (W i v l h Hv Hl Hh). apply Rabs_def2 in D. lra.
Qed.
(** every joint vector reaching the pose is one of the four configurations, up to full turns *)
Lemma covers : forall s q0 x y z oy oz, 0 < A1 s -> 0 < A2 s -> 0 < oy < PI -> length q0 = 5%nat -> ~ wrist_at_shoulder s q0 ->
  flange s q0 = F (EulerZYZ (atan2 y x) oy oz) (V x y z) ->
  let prW := sqrt (x * x + y * y) - A3 s * sin oy in let phW := z - A0 s - A3 s * cos oy in
  (exists a b, wrist s a b prW phW) /\ prW * prW + phW * phW <> 0 /\
  forall t1u t1d t2, wrist s t1u t2 prW phW -> wrist s t1d (- t2) prW phW ->
    exists c o, In (c, o) (cand (radToDeg (atan2 y x)) (radToDeg t1u) (radToDeg t1d) (radToDeg t2) (radToDeg (oy - t1u - t2)) (radToDeg (oy - t1d + t2)) (radToDeg oz)) /\
      Forall2 (fun v u => eqv (rad v) (rad u)) q0 c.
Proof.
  intros s q0 x y z oy oz P1 P2 OY LQ NS FL prW0 phW0.
  destruct (five q0 LQ) as (v1 & v2 & v3 & v4 & v5 & ->). cbn [flange] in FL. cbn [wrist_at_shoulder] in NS. rewrite arm_form in FL.
  set (q1 := rad v1) in *. set (q2 := rad v2) in *. set (q3 := rad v3) in *. set (q4 := rad v4) in *. set (q5 := rad v5) in *.
  set (pr := A1 s * sin q2 + A2 s * sin (q2 + q3) + A3 s * sin (q2 + q3 + q4)) in *.
  set (ph := A1 s * cos q2 + A2 s * cos (q2 + q3) + A3 s * cos (q2 + q3 + q4)) in *.
  assert (FM : EulerZYZ q1 (q2 + q3 + q4) q5 = EulerZYZ (atan2 y x) oy oz) by (apply (f_equal fM) in FL; exact FL).
  assert (FX : pr * cos q1 = x) by (apply (f_equal (fun f => vx (fp f))) in FL; exact FL).
  assert (FY : pr * sin q1 = y) by (apply (f_equal (fun f => vy (fp f))) in FL; exact FL).
  assert (FZ : ph + A0 s = z) by (apply (f_equal (fun f => vz (fp f))) in FL; exact FL).
  pose proof (sin_gt_0 oy (proj1 OY) (proj2 OY)) as SP.
  destruct (zyz_unique _ _ _ _ _ _ SP FM) as (k & K & KB1 & KB2 & KA1 & KA2 & KG1 & KG2).
  destruct (polar_back x y) as [PX PY]. set (r := sqrt (x * x + y * y)) in *.
  assert (KK : k * k = 1) by (destruct K as [->| ->]; ring).
  assert (PR : pr = k * r).
  { pose proof (sin2_cos2 q1) as Q. unfold Rsqr in Q.
    transitivity (pr * (sin q1 * sin q1 + cos q1 * cos q1)); [rewrite Q; ring|].
    transitivity (pr * sin q1 * sin q1 + pr * cos q1 * cos q1); [ring|]. rewrite FX, FY, KA1, KA2.
    pose proof (sin2_cos2 (atan2 y x)) as Q'. unfold Rsqr in Q'.
    transitivity (r * sin (atan2 y x) * (k * sin (atan2 y x)) + r * cos (atan2 y x) * (k * cos (atan2 y x))); [rewrite PX, PY; reflexivity|].
    transitivity (k * r * (sin (atan2 y x) * sin (atan2 y x) + cos (atan2 y x) * cos (atan2 y x))); [ring|rewrite Q'; ring]. }
  set (prW := r - A3 s * sin oy). set (phW := z - A0 s - A3 s * cos oy).
  assert (SK : forall u, sin (k * u) = k * sin u) by (intros u; destruct K as [->| ->]; [rewrite !Rmult_1_l; reflexivity|replace (-1 * u) with (- u) by ring; rewrite sin_neg; ring]).
  assert (CK : forall u, cos (k * u) = cos u) by (intros u; destruct K as [->| ->]; [rewrite !Rmult_1_l; reflexivity|replace (-1 * u) with (- u) by ring; rewrite cos_neg; ring]).
  assert (W0 : wrist s (k * q2) (k * q3) prW phW).
  { unfold wrist. rewrite <- Rmult_plus_distr_l, !SK, !CK. unfold prW, phW. split.
    - apply Rmult_eq_reg_l with k; [|intros Z; rewrite Z in KK; lra].
      transitivity (k * k * (A1 s * sin q2 + A2 s * sin (q2 + q3))); [ring|]. rewrite KK. rewrite Rmult_minus_distr_l, <- PR.
      transitivity (pr - A3 s * (k * sin oy)); [|ring]. rewrite <- KB2. unfold pr. ring.
    - rewrite <- FZ, <- KB1. unfold ph. ring. }
  assert (NZ : prW * prW + phW * phW <> 0).
  { intros Z. apply NS. assert (prW = 0 /\ phW = 0) as [Z1 Z2] by (clear - Z; clearbody prW phW; split; nra). destruct W0 as [W1 W2]. rewrite Z1 in W1. rewrite Z2 in W2.
    rewrite <- Rmult_plus_distr_l, !SK in W1. rewrite <- Rmult_plus_distr_l, !CK in W2. split; [|exact W2].
    apply Rmult_eq_reg_l with k; [|intros Z0; rewrite Z0 in KK; lra]. lra. }
  split; [eauto|]. split; [exact NZ|]. intros t1u t1d t2 W1 W2.
  destruct (wrist_unique s _ _ _ _ _ _ ltac:(lra) ltac:(lra) W0 W1) as [C3 U3].
  destruct (wrist_unique s _ _ _ _ _ _ ltac:(lra) ltac:(lra) W0 W2) as [_ D3]. specialize (U3 NZ). specialize (D3 NZ).
  assert (SS : sin (k * q3) = sin t2 \/ sin (k * q3) = - sin t2).
  { pose proof (sin2_cos2 (k * q3)) as Q1. pose proof (sin2_cos2 t2) as Q2. unfold Rsqr in *. rewrite C3 in Q1.
    assert (Z : (sin (k * q3) - sin t2) * (sin (k * q3) + sin t2) = 0) by (clear - Q1 Q2; transitivity (sin (k * q3) * sin (k * q3) - sin t2 * sin t2); [ring|lra]). apply Rmult_integral in Z. destruct Z; [left|right]; lra. }
  assert (OB : eqv (k * (q2 + q3 + q4)) oy) by (split; [rewrite SK, KB2; transitivity (k * k * sin oy); [ring|rewrite KK; ring]|rewrite CK; exact KB1]).
  assert (Q4 : forall a b, eqv (k * q2) a -> eqv (k * q3) b -> eqv (k * q4) (oy - a - b)).
  { intros a b HA HB. replace (k * q4) with (k * (q2 + q3 + q4) - k * q2 - k * q3) by ring. auto using eqv_minus. }
  assert (T : exists a b, (a = t1u /\ b = t2 \/ a = t1d /\ b = - t2) /\ eqv (k * q2) a /\ eqv (k * q3) b).
  { destruct SS as [SS|SS].
    - exists t1u, t2. split; [auto|]. split; [apply U3; exact SS|split; auto].
    - exists t1d, (- t2). split; [auto|]. split; [apply D3; rewrite sin_neg; exact SS|split; [rewrite sin_neg; exact SS|rewrite cos_neg; exact C3]]. }
  destruct T as (a & b & AB & E2 & E3). pose proof (Q4 a b E2 E3) as E4.
  assert (RD : forall t, rad (- radToDeg t) = - t) by (intros; rewrite rad_neg, rad_of_deg; reflexivity).
  assert (RH : forall t, rad (radToDeg t + 180) = t + PI) by (intros; rewrite rad_half, rad_of_deg; reflexivity).
  destruct K as [->| ->].
  - rewrite !Rmult_1_l in *. destruct AB as [[-> ->]|[-> ->]].
    + do 2 eexists. split; [left; reflexivity|]. repeat constructor; rewrite ?rad_of_deg; fold q1 q2 q3 q4 q5; try apply E2; try apply E3; try apply E4; lra.
    + do 2 eexists. split; [right; left; reflexivity|]. replace (oy - t1d - - t2) with (oy - t1d + t2) in E4 by ring.
      repeat constructor; rewrite ?RD, ?rad_of_deg; fold q1 q2 q3 q4 q5; try apply E2; try apply E3; try apply E4; lra.
  - assert (NG : forall u w, eqv (-1 * u) w -> eqv u (- w)) by (intros u w H; apply eqv_neg; replace (- u) with (-1 * u) by ring; exact H).
    apply NG in E2, E3, E4.
    assert (H1 : eqv q1 (atan2 y x + PI)) by (apply eqv_half; lra). assert (H5 : eqv q5 (oz + PI)) by (apply eqv_half; lra).
    destruct AB as [[-> ->]|[-> ->]].
    + do 2 eexists. split; [right; right; left; reflexivity|].
      constructor; [rewrite RH; exact H1|]. constructor; [rewrite RD; exact E2|]. constructor; [rewrite RD; exact E3|]. constructor; [rewrite RD; exact E4|].
      constructor; [rewrite RH; exact H5|]. constructor.
    + do 2 eexists. split; [right; right; right; left; reflexivity|]. replace (oy - t1d - - t2) with (oy - t1d + t2) in E4 by ring. rewrite Ropp_involutive in E3.
      constructor; [rewrite RH; exact H1|]. constructor; [rewrite RD; exact E2|]. constructor; [rewrite rad_of_deg; exact E3|]. constructor; [rewrite RD; exact E4|].
      constructor; [rewrite RH; exact H5|]. constructor.
Qed.
Lemma covered : forall s q0 c o cs, well_made s -> In (c, o) cs -> length c = 5%nat -> Forall (fun v => -540 < v <= 540) c ->
  within q0 (qMin s) (qMax s) -> one_turn q0 -> Forall2 (fun v u => eqv (rad v) (rad u)) q0 c ->
  close q0 (map normalizeAngle c) /\ In (valid_pose (qMin s) (qMax s) (c, o)) (map (valid_pose (qMin s) (qMax s)) cs) /\ p_valid (valid_pose (qMin s) (qMax s) (c, o)) = true.
Proof.
  intros s q0 c o cs [L1 L2] IC LC FC WI OT EQ.
  assert (CL : Forall2 (fun v n => Rabs (v - n) < / 1000) q0 (map normalizeAngle c)).
  { clear - EQ FC OT. unfold one_turn in OT. revert OT. induction EQ as [|v u vs us H EQ IH]; cbn; constructor.
    - apply eqv_norm; [inversion OT; auto|inversion FC; auto|auto].
    - apply IH; [inversion FC; auto|inversion OT; auto]. }
  split; [exact CL|]. split; [apply in_map; exact IC|]. apply (valid_close _ _ q0); auto.
Qed.
Theorem core_complete : forall s guess q0 x y z oy oz, well_made s -> 0 < A1 s -> 0 < A2 s -> 0 <= A3 s -> (5 <= length guess)%nat ->
  0 < oy < PI -> - PI < oz <= PI -> within q0 (qMin s) (qMax s) -> one_turn q0 -> ~ wrist_at_shoulder s q0 ->
  flange s q0 = F (EulerZYZ (atan2 y x) oy oz) (V x y z) -> exists q, core s guess x y z oy oz = Some (Some q).
Proof.
  intros s guess q0 x y z oy oz WM P1 P2 P3 LG OY OZ WI OT NS FL.
  destruct (covers s q0 x y z oy oz P1 P2 OY (proj1 WI) NS FL) as ((a & b & W0) & NZ & COV).
  destruct (closed_total s x y z oy a b P1 P2 P3 W0 NZ) as (c & CF & CN).
  destruct (core_spec s guess x y z oy oz WM ltac:(lra) OZ) as [[_ N]|(t1u & t1d & t2 & _ & W1 & W2 & B1 & B2 & B3 & RG & E)]; [exfalso; apply CN; auto|].
  destruct (COV t1u t1d t2 W1 W2) as (cc & o & IC & EQ). set (cs := cand _ _ _ _ _ _ _) in *.
  destruct (RG cc o IC) as [LC FC]. destruct (covered s q0 cc o cs WM IC LC FC WI OT EQ) as (_ & IV & V0).
  assert (V : existsb p_valid (map (valid_pose (qMin s) (qMax s)) cs) = true) by (apply existsb_exists; eauto).
  destruct (chosen guess (map (valid_pose (qMin s) (qMax s)) cs) LG V) as (p & FO).
  { intros p IP. apply in_map_iff in IP. destruct IP as ([c' o'] & <- & I'). destruct (RG c' o' I') as [L' _]. exists (map normalizeAngle c'). split; [reflexivity|rewrite map_length; exact L']. }
  rewrite E, V, FO. eauto.
Qed.
(** the choice among them *)
Lemma travel_is : forall guess lo hi c o, length c = 5%nat -> (5 <= length guess)%nat ->
  travel guess (valid_pose lo hi (c, o)) = distance guess (map normalizeAngle c) /\ travel2 guess (valid_pose lo hi (c, o)) = second guess (map normalizeAngle c).
Proof.
  intros guess lo hi c o LC LG. destruct (five c LC) as (c1 & c2 & c3 & c4 & c5 & ->).
  do 5 (destruct guess as [|? guess]; [cbn in LG; lia|]). unfold travel, travel2, getDiffs, valid_pose. cbn. split; [|reflexivity]. lra.
Qed.
Lemma distance_close : forall guess a b, length a = 5%nat -> close a b -> distance guess b <= distance guess a + 5 / 1000.
Proof.
  assert (ONE : forall g u v, Rabs (u - v) < / 1000 -> Rabs (g - v) <= Rabs (g - u) + / 1000).
  { intros g u v H. replace (g - v) with (g - u + (u - v)) by ring. eapply Rle_trans; [apply Rabs_triang|]. lra. }
  intros guess a b LA CL. destruct (five a LA) as (a1 & a2 & a3 & a4 & a5 & ->). unfold close in CL.
  inversion CL as [|? b1 ? ? H1 CL1]; subst. inversion CL1 as [|? b2 ? ? H2 CL2]; subst. inversion CL2 as [|? b3 ? ? H3 CL3]; subst.
  inversion CL3 as [|? b4 ? ? H4 CL4]; subst. inversion CL4 as [|? b5 ? ? H5 CL5]; subst. inversion CL5; subst.
  do 5 (destruct guess as [|? guess]; [cbn; lra|]). cbn.
  apply (ONE r) in H1. apply (ONE r0) in H2. apply (ONE r1) in H3. apply (ONE r2) in H4. apply (ONE r3) in H5. lra.
Qed.
Theorem core_shortest : forall s guess x y z oy oz q, well_made s -> 0 < A1 s -> 0 < A2 s -> (5 <= length guess)%nat -> 0 < oy < PI -> - PI < oz <= PI ->
  core s guess x y z oy oz = Some (Some q) ->
  exists best best', close best' best /\ flange s best' = F (EulerZYZ (atan2 y x) oy oz) (V x y z) /\ within_tolerance best (qMin s) (qMax s) /\ one_turn best /\
    (forall q0, within q0 (qMin s) (qMax s) -> one_turn q0 -> ~ wrist_at_shoulder s q0 -> flange s q0 = F (EulerZYZ (atan2 y x) oy oz) (V x y z) ->
       distance guess best <= distance guess q0 + 5 / 1000) /\
    (q = best \/ second guess q <= second guess best).
Proof.
  intros s guess x y z oy oz q WM P1 P2 LG OY OZ H.
  destruct (core_spec s guess x y z oy oz WM ltac:(lra) OZ) as [[N _]|(t1u & t1d & t2 & CF & W1 & W2 & B1 & B2 & B3 & RG & E)]; [congruence|].
  rewrite E in H. clear E. set (cs := cand _ _ _ _ _ _ _) in *. destruct (existsb p_valid _); [|discriminate].
  destruct (findOptimal guess _) as [[p|]|] eqn:FO; try discriminate. injection H as <-.
  apply choice in FO. destruct FO as (IP & V & best & IB & VB & LEAST & ALT).
  apply in_map_iff in IP. destruct IP as ([cp op] & <- & ICP). apply in_map_iff in IB. destruct IB as ([cb ob] & <- & ICB).
  destruct (RG cb ob ICB) as [LB FB]. destruct (RG cp op ICP) as [LP FP].
  destruct (travel_is guess (qMin s) (qMax s) cb ob LB LG) as [TB SB]. destruct (travel_is guess (qMin s) (qMax s) cp op LP LG) as [TP SP].
  destruct (normalized_all cb) as (b' & ST & CL). exists (map normalizeAngle cb), b'. split; [exact CL|].
  split; [rewrite (flange_turns s cb b' ST); apply (cand_flange s x y z oy oz t1u t1d t2 W1 W2 cb ob ICB)|].
  split; [|split; [|split]].
  - destruct WM as [L1 L2]. unfold valid_pose in VB. cbn [p_valid fst] in VB.
    destruct (in_limits (map normalizeAngle cb) (qMin s) (qMax s)) as (b & EB & HB); [rewrite map_length; lia..|]. rewrite EB in VB. subst b.
    split; [rewrite map_length; exact LB|]. apply HB. reflexivity.
  - unfold one_turn. apply Forall_map. eapply Forall_impl; [|exact FB]. intros v Hv. apply normalize_range. exact Hv.
  - intros q0 WI OT NS FL. destruct (covers s q0 x y z oy oz P1 P2 OY (proj1 WI) NS FL) as (_ & _ & COV).
    destruct (COV t1u t1d t2 W1 W2) as (cc & o & IC & EQ). destruct (RG cc o IC) as [LC FC].
    destruct (covered s q0 cc o cs WM IC LC FC WI OT EQ) as (CL0 & IV & V0). specialize (LEAST _ IV V0).
    rewrite TB in LEAST. destruct (travel_is guess (qMin s) (qMax s) cc o LC LG) as [TC _]. rewrite TC in LEAST.
    pose proof (distance_close guess q0 _ (proj1 WI) CL0). lra.
  - cbn [p_joints valid_pose fst]. rewrite unwrap. destruct ALT as [EQ|(_ & S2 & _)]; [left|right; rewrite <- SB, <- SP; exact S2].
    apply (f_equal p_joints) in EQ. cbn [p_joints valid_pose fst] in EQ. apply (f_equal (map (fun o : option R => match o with Some v => v | None => 0 end))) in EQ. rewrite !unwrap in EQ. exact EQ.
Qed.
Lemma core_shoulder : forall s guess x y z oy oz, well_made s -> sqrt (x * x + y * y) - A3 s * sin oy = 0 -> z - A0 s - A3 s * cos oy = 0 ->
  core s guess x y z oy oz = Some None.
Proof.
  intros s guess x y z oy oz [L1 L2] E1 E2. unfold core. destruct (closed_form s x y z oy) as [c|] eqn:CF; [|reflexivity].
  assert (s_t1u c = None /\ s_t1d c = None) as [N1 N2].
  { unfold closed_form in CF. cbv zeta in CF. rewrite E1, E2 in CF. destruct (Rltb _ _); [discriminate|]. destruct (Rltb _ _); [discriminate|]. injection CF as <-.
    cbn [s_t1u s_t1d]. unfold fdiv. replace (Reqb (0 * 0 + 0 * 0) 0) with true by (symmetry; apply Reqb_true; ring).
    destruct (Reqb (2 * A1 s * A2 s) 0); [split; reflexivity|]. destruct (osqrt _); split; reflexivity. }
  destruct (configure_nan (qMin s) (qMax s) (Some (radToDeg (s_oz c))) (option_map radToDeg (s_t1u c))
              (option_map radToDeg (s_t1d c)) (option_map radToDeg (s_t2 c)) (option_map radToDeg (s_t3u c))
              (option_map radToDeg (s_t3d c)) (Some (radToDeg oz)) L1 L2) as (ps & ->); [rewrite N1; reflexivity|rewrite N2; reflexivity|reflexivity].
Qed.
