(** Proofs about the solver of ASIBOT: inverse kinematics. *)
From Coq Require Import Reals Lra Lia List Bool Arith.
From Verif Require Import Kdl KdlFacts KdlRot KdlRotFacts Trig TrigFacts KinRep KinRepSpec KinRepFacts KinRepFacts2 KinRepFacts3 Asibot AsibotSpec AsibotFacts.
Import ListNotations.
Open Scope R_scope.
Local Notation S := Datatypes.S.

(** ** The planar problem *)
Definition wrist (s : asibot) (a b pr ph : R) : Prop :=
  A1 s * sin a + A2 s * sin (a + b) = pr /\ A1 s * cos a + A2 s * cos (a + b) = ph.
Lemma two_links : forall a1 a2 pr ph c st, ph * ph + pr * pr <> 0 -> c * c + st * st = 1 ->
  ph * ph + pr * pr = a1 * a1 + a2 * a2 + 2 * a1 * a2 * c ->
  let L := ph * ph + pr * pr in
  let s1 := ((a1 + a2 * c) * pr - a2 * st * ph) / L in let c1 := ((a1 + a2 * c) * ph + a2 * st * pr) / L in
  let t1 := atan2 s1 c1 in
  a1 * sin t1 + a2 * (sin t1 * c + cos t1 * st) = pr /\ a1 * cos t1 + a2 * (cos t1 * c - sin t1 * st) = ph.
Proof.
  intros a1 a2 pr ph c st LN CS LE L s1 c1 t1. fold L in LN, LE.
  assert (K : (a1 + a2 * c) * (a1 + a2 * c) + a2 * st * (a2 * st) = L).
  { rewrite LE. transitivity (a1 * a1 + 2 * a1 * a2 * c + a2 * a2 * (c * c + st * st)); [ring|]. rewrite CS. ring. }
  assert (ONE : s1 * s1 + c1 * c1 = 1).
  { unfold s1, c1. transitivity (((a1 + a2 * c) * (a1 + a2 * c) + a2 * st * (a2 * st)) * (ph * ph + pr * pr) / (L * L)); [field; exact LN|].
    rewrite K. fold L. field. exact LN. }
  destruct (polar1 s1 c1 ONE) as [C1 S1]. unfold t1. rewrite C1, S1. unfold s1, c1. split.
  - transitivity (((a1 + a2 * c) * (a1 + a2 * c) + a2 * st * (a2 * st)) * pr / L); [field; exact LN|]. rewrite K. field. exact LN.
  - transitivity (((a1 + a2 * c) * (a1 + a2 * c) + a2 * st * (a2 * st)) * ph / L); [field; exact LN|]. rewrite K. field. exact LN.
Qed.
Lemma sq_one : forall c, 0 <= 1 - c * c -> c * c + sqrt (1 - c * c) * sqrt (1 - c * c) = 1.
Proof. intros c H. rewrite sqrt_sqrt by exact H. ring. Qed.
Lemma atan2_upper : forall y x, 0 <= y -> y * y + x * x = 1 -> 0 <= atan2 y x <= PI.
Proof.
  intros y x Y H. destruct (polar1 y x H) as [C S1]. pose proof (atan2_bound y x) as B. split; [|lra].
  destruct (Rle_or_lt 0 (atan2 y x)) as [|N]; [assumption|exfalso].
  pose proof (sin_lt_0_var (atan2 y x) ltac:(lra) N). lra.
Qed.

Lemma closed_spec : forall s x y z oy c, closed_form s x y z oy = Some c ->
  let prW := sqrt (x * x + y * y) - A3 s * sin oy in let phW := z - A0 s - A3 s * cos oy in
  (exists t1u t1d t2, c = Sol (atan2 y x) (Some t1u) (Some t1d) (Some t2) (Some (oy - t1u - t2)) (Some (oy - t1d + t2)) /\
     wrist s t1u t2 prW phW /\ wrist s t1d (- t2) prW phW /\ - PI < t1u <= PI /\ - PI < t1d <= PI /\ 0 <= t2 <= PI) \/
  (s_t1u c = None /\ s_t1d c = None).
Proof.
  intros s x y z oy c H prW phW. unfold closed_form in H. cbv zeta in H.
  destruct (Rltb (A1 s + A2 s + A3 s) _); [discriminate|]. fold prW phW in H.
  set (L := phW * phW + prW * prW) in *. destruct (Rltb (A1 s + A2 s) (sqrt L)); [discriminate|].
  destruct (fdiv (L - A1 s * A1 s - A2 s * A2 s) (2 * A1 s * A2 s)) as [ct|] eqn:CT.
  2:{ injection H as <-. right. split; reflexivity. }
  unfold fdiv in CT. destruct (Reqb (2 * A1 s * A2 s) 0) eqn:Z; [discriminate|]. apply Reqb_false in Z. injection CT as CT.
  unfold osqrt in H. destruct (Rltb (1 - ct * ct) 0) eqn:Q.
  { injection H as <-. right. split; reflexivity. }
  apply Rltb_false in Q. unfold fdiv in H. destruct (Reqb L 0) eqn:LZ.
  { injection H as <-. right. split; reflexivity. }
  apply Reqb_false in LZ. injection H as <-. left.
  pose proof (sq_one ct Q) as ONE. set (st := sqrt (1 - ct * ct)) in *.
  assert (SP : 0 <= st) by apply sqrt_pos.
  assert (LE : L = A1 s * A1 s + A2 s * A2 s + 2 * A1 s * A2 s * ct).
  { rewrite <- CT. field. split; intros E; apply Z; rewrite E; ring. }
  destruct (polar1 st ct ltac:(lra)) as [C2 S2].
  pose proof (two_links (A1 s) (A2 s) prW phW ct st LZ ONE LE) as [U1 U2].
  pose proof (two_links (A1 s) (A2 s) prW phW ct (- st) LZ ltac:(lra) LE) as [D1 D2].
  fold L in U1, U2, D1, D2.
  replace ((A1 s + A2 s * ct) * prW - A2 s * - st * phW) with ((A1 s + A2 s * ct) * prW + A2 s * st * phW) in D1, D2 by ring.
  replace ((A1 s + A2 s * ct) * phW + A2 s * - st * prW) with ((A1 s + A2 s * ct) * phW - A2 s * st * prW) in D1, D2 by ring.
  do 3 eexists. split; [reflexivity|]. split; [|split; [|split; [apply atan2_bound|split; [apply atan2_bound|apply atan2_upper; lra]]]].
  - unfold wrist. rewrite sin_plus, cos_plus, C2, S2. split; assumption.
  - unfold wrist. rewrite sin_plus, cos_plus, cos_neg, sin_neg, C2, S2. split; assumption.
Qed.

(** ** The four configurations *)
Definition cand (q1 q2u q2d q3 q4u q4d q5 : R) : list (list R * (orientation * elbow)) :=
  [ ([q1; q2u; q3; q4u; q5], (FORWARD, UP)); ([q1; q2d; - q3; q4d; q5], (FORWARD, DOWN));
    ([q1 + 180; - q2u; - q3; - q4u; q5 + 180], (REVERSED, UP)); ([q1 + 180; - q2d; q3; - q4d; q5 + 180], (REVERSED, DOWN)) ].
Lemma Rz_half : forall a b g, EulerZYZ (a + PI) (- b) (g + PI) = EulerZYZ a b g.
Proof. intros. unfold EulerZYZ. apply mat_eq; cbn; rewrite ?neg_sin, ?neg_cos, ?sin_neg, ?cos_neg; ring. Qed.
Lemma rad_half : forall x, rad (x + 180) = rad x + PI.
Proof. intros. unfold rad. field. Qed.
Lemma rad_neg : forall x, rad (- x) = - rad x.
Proof. intros. unfold rad. field. Qed.
Lemma polar_back : forall x y, sqrt (x * x + y * y) * cos (atan2 y x) = x /\ sqrt (x * x + y * y) * sin (atan2 y x) = y.
Proof. intros. apply atan2_polar. Qed.
(** each configuration reaches the position with the two angles *)
Lemma cand_flange : forall s x y z oy g t1u t1d t2,
  let prW := sqrt (x * x + y * y) - A3 s * sin oy in let phW := z - A0 s - A3 s * cos oy in
  wrist s t1u t2 prW phW -> wrist s t1d (- t2) prW phW ->
  forall c o, In (c, o) (cand (radToDeg (atan2 y x)) (radToDeg t1u) (radToDeg t1d) (radToDeg t2) (radToDeg (oy - t1u - t2)) (radToDeg (oy - t1d + t2)) (radToDeg g)) ->
  flange s c = F (EulerZYZ (atan2 y x) oy g) (V x y z).
Proof.
  intros s x y z oy g t1u t1d t2 prW phW [U1 U2] [D1 D2] c o I.
  destruct (polar_back x y) as [PX PY]. set (d := sqrt (x * x + y * y)) in *.
  assert (GO : forall q1 q2 q3 q4 q5 k, (k = 1 /\ q1 = atan2 y x /\ q2 + q3 + q4 = oy /\ q5 = g \/ k = -1 /\ q1 = atan2 y x + PI /\ q2 + q3 + q4 = - oy /\ q5 = g + PI) ->
    A1 s * sin q2 + A2 s * sin (q2 + q3) = k * prW -> A1 s * cos q2 + A2 s * cos (q2 + q3) = phW ->
    arm (A0 s) (A1 s) (A2 s) (A3 s) q1 q2 q3 q4 q5 = F (EulerZYZ (atan2 y x) oy g) (V x y z)).
  { intros q1 q2 q3 q4 q5 k HK E1 E2. rewrite arm_form. rewrite E1, E2. unfold prW, phW.
    destruct HK as [(-> & -> & -> & ->)|(-> & -> & -> & ->)].
    - f_equal. apply vec_eq; cbn; [transitivity (d * cos (atan2 y x)); [ring|exact PX]|transitivity (d * sin (atan2 y x)); [ring|exact PY]|ring].
    - rewrite Rz_half, sin_neg, cos_neg, neg_cos, neg_sin. f_equal. apply vec_eq; cbn; [transitivity (d * cos (atan2 y x)); [ring|exact PX]|transitivity (d * sin (atan2 y x)); [ring|exact PY]|ring]. }
  cbn [cand In] in I. destruct I as [I|[I|[I|[I|[]]]]]; injection I as <- _; cbn [flange]; rewrite ?rad_half, ?rad_neg, !rad_of_deg.
  - apply (GO _ _ _ _ _ 1); [left; repeat split; ring|rewrite U1; ring|exact U2].
  - apply (GO _ _ _ _ _ 1); [left; repeat split; ring|rewrite D1; ring|exact D2].
  - apply (GO _ _ _ _ _ (-1)); [right; repeat split; ring| |].
    + replace (- t1u + - t2) with (- (t1u + t2)) by ring. rewrite !sin_neg. rewrite <- U1. ring.
    + replace (- t1u + - t2) with (- (t1u + t2)) by ring. rewrite !cos_neg. exact U2.
  - apply (GO _ _ _ _ _ (-1)); [right; repeat split; ring| |].
    + replace (- t1d + t2) with (- (t1d + - t2)) by ring. rewrite !sin_neg. rewrite <- D1. ring.
    + replace (- t1d + t2) with (- (t1d + - t2)) by ring. rewrite !cos_neg. exact D2.
Qed.

(** ** Normalisation *)
Definition same_turn (a b : R) : Prop := b = a \/ b = a - 360 \/ b = a + 360.
Lemma normalized : forall q, exists b, same_turn q b /\ Rabs (b - normalizeAngle q) < / 1000.
Proof.
  intros q. unfold normalizeAngle. destruct (Rltb 180 q).
  { exists (q - 360). split; [right; left; reflexivity|]. unfold Rminus at 1. rewrite Rplus_opp_r, Rabs_R0. lra. }
  destruct (Rleb q (-180)).
  { exists (q + 360). split; [right; right; reflexivity|]. unfold Rminus at 1. rewrite Rplus_opp_r, Rabs_R0. lra. }
  destruct (Rltb (Rabs q) deg_eps) eqn:E.
  { apply Rltb_true in E. exists q. split; [left; reflexivity|]. rewrite Rminus_0_r. exact E. }
  exists q. split; [left; reflexivity|]. unfold Rminus at 1. rewrite Rplus_opp_r, Rabs_R0. lra.
Qed.
Lemma same_turn_trig : forall a b, same_turn a b -> sin (rad b) = sin (rad a) /\ cos (rad b) = cos (rad a).
Proof.
  intros a b [->|[->| ->]]; [auto| |].
  - replace (rad (a - 360)) with (rad a - 2 * PI) by (unfold rad; field). rewrite sin_minus, cos_minus, sin_2PI, cos_2PI. split; ring.
  - replace (rad (a + 360)) with (rad a + 2 * PI) by (unfold rad; field). rewrite sin_plus, cos_plus, sin_2PI, cos_2PI. split; ring.
Qed.
Lemma flange_turns : forall s c q, Forall2 same_turn c q -> flange s q = flange s c.
Proof.
  intros s c q H.
  assert (Z : forall a b, same_turn a b -> RotZ (rad b) = RotZ (rad a)) by (intros a b T; destruct (same_turn_trig a b T) as [X Y]; unfold RotZ; rewrite X, Y; reflexivity).
  assert (Y : forall a b, same_turn a b -> RotY (rad b) = RotY (rad a)) by (intros a b T; destruct (same_turn_trig a b T) as [X0 Y0]; unfold RotY; rewrite X0, Y0; reflexivity).
  destruct H as [|a1 b1 ? ? T1 H]; [reflexivity|]. destruct H as [|a2 b2 ? ? T2 H]; [reflexivity|]. destruct H as [|a3 b3 ? ? T3 H]; [reflexivity|].
  destruct H as [|a4 b4 ? ? T4 H]; [reflexivity|]. destruct H as [|a5 b5 ? ? T5 H]; [reflexivity|]. destruct H as [|]; [|reflexivity].
  cbn [flange]. unfold arm. rewrite (Z _ _ T1), (Y _ _ T2), (Y _ _ T3), (Y _ _ T4), (Z _ _ T5). reflexivity.
Qed.
Lemma normalized_all : forall c, exists q', Forall2 same_turn c q' /\ close q' (map normalizeAngle c).
Proof.
  unfold close. induction c as [|a c (q' & T & C)]; [exists []; split; constructor|]. destruct (normalized a) as (b & B1 & B2).
  exists (b :: q'). split; constructor; auto.
Qed.

(** ** Limits *)
Lemma in_limits : forall q lo hi, length q = length lo -> length q = length hi ->
  exists b, joints_in_limits (map Some q) lo hi = Some b /\
  (b = true <-> forall i x l h, nth_error q i = Some x -> nth_error lo i = Some l -> nth_error hi i = Some h -> l - / 1000 <= x <= h + / 1000).
Proof.
  induction q as [|x q IH]; intros [|l lo] [|h hi] L1 L2; try discriminate.
  - exists true. split; [reflexivity|]. split; [|reflexivity]. intros _ [|i]; discriminate.
  - destruct (IH lo hi ltac:(cbn in *; lia) ltac:(cbn in *; lia)) as (b & E & B). cbn. rewrite E. eexists. split; [reflexivity|].
    unfold checkJointInLimits, deg_eps. rewrite !andb_true_iff, !Rleb_true, B. split.
    + intros ((A1 & A2) & A3) [|i] x' l' h' X Y Z; cbn in *; [injection X as <-; injection Y as <-; injection Z as <-; lra|eauto].
    + intros A. split; [specialize (A O x l h eq_refl eq_refl eq_refl); lra|]. intros i x' l' h' X Y Z. apply (A (S i) x' l' h'); auto.
Qed.
Lemma not_in_limits : forall js lo hi, In None js -> length js = length lo -> length js = length hi -> joints_in_limits js lo hi = Some false.
Proof.
  intros js lo hi I. assert (T : forall js lo hi, length js = length lo -> length js = length hi -> exists b, joints_in_limits js lo hi = Some b).
  { clear. induction js as [|x js IH]; intros [|l lo] [|h hi] L1 L2; try discriminate; cbn; eauto.
    destruct (IH lo hi ltac:(cbn in *; lia) ltac:(cbn in *; lia)) as (b & ->). eauto. }
  revert lo hi. induction js as [|x js IH]; intros [|l lo] [|h hi] L1 L2; try discriminate; try contradiction; cbn.
  destruct (T js lo hi ltac:(cbn in *; lia) ltac:(cbn in *; lia)) as (b & E). destruct I as [->|I].
  - rewrite E. cbn. reflexivity.
  - rewrite (IH I lo hi) by (cbn in *; lia). rewrite andb_false_r. reflexivity.
Qed.
Definition valid_pose (lo hi : list R) (c : list R * (orientation * elbow)) : pose :=
  Pose (map Some (map normalizeAngle (fst c))) (match joints_in_limits (map Some (map normalizeAngle (fst c))) lo hi with Some b => b | None => false end) (fst (snd c)) (snd (snd c)).
Lemma stored_spec : forall lo hi c o e, length lo = 5%nat -> length hi = 5%nat -> length c = 5%nat ->
  stored lo hi (map Some c) o e = Some (valid_pose lo hi (c, (o, e))).
Proof.
  intros lo hi c o e L1 L2 L3. unfold stored, valid_pose. cbn [fst snd]. rewrite map_map, (map_map normalizeAngle).
  change (fun x : R => option_map normalizeAngle (Some x)) with (fun x => Some (normalizeAngle x)).
  rewrite <- (map_map normalizeAngle Some).
  destruct (in_limits (map normalizeAngle c) lo hi) as (b & E & _); [rewrite map_length; lia..|]. rewrite E. reflexivity.
Qed.
Lemma configure_spec : forall lo hi q1 q2u q2d q3 q4u q4d q5, length lo = 5%nat -> length hi = 5%nat ->
  q2u + q3 + q4u = q2d - q3 + q4d ->
  configure lo hi (Some q1) (Some q2u) (Some q2d) (Some q3) (Some q4u) (Some q4d) (Some q5) =
  let ps := map (valid_pose lo hi) (cand q1 q2u q2d q3 q4u q4d q5) in Some (existsb p_valid ps, ps).
Proof.
  intros lo hi q1 q2u q2d q3 q4u q4d q5 L1 L2 EQ. unfold configure. cbn [oadd osub omap2].
  replace (q2u + q3 + q4u - (q2d - q3 + q4d)) with 0 by lra. rewrite Rabs_R0.
  destruct (Rltb deg_eps 0) eqn:E; [apply Rltb_true in E; unfold deg_eps in E; lra|].
  cbn [oopp oplus option_map].
  change (stored lo hi [Some q1; Some q2u; Some q3; Some q4u; Some q5]) with (stored lo hi (map Some [q1; q2u; q3; q4u; q5])).
  change (stored lo hi [Some q1; Some q2d; Some (- q3); Some q4d; Some q5]) with (stored lo hi (map Some [q1; q2d; - q3; q4d; q5])).
  change (stored lo hi [Some (q1 + 180); Some (- q2u); Some (- q3); Some (- q4u); Some (q5 + 180)]) with (stored lo hi (map Some [q1 + 180; - q2u; - q3; - q4u; q5 + 180])).
  change (stored lo hi [Some (q1 + 180); Some (- q2d); Some q3; Some (- q4d); Some (q5 + 180)]) with (stored lo hi (map Some [q1 + 180; - q2d; q3; - q4d; q5 + 180])).
  rewrite !stored_spec by auto. reflexivity.
Qed.
Lemma configure_nan : forall lo hi q1 q2u q2d q3 q4u q4d q5, length lo = 5%nat -> length hi = 5%nat -> q2u = None -> q2d = None ->
  exists ps, configure lo hi q1 q2u q2d q3 q4u q4d q5 = Some (false, ps).
Proof.
  intros lo hi q1 q2u q2d q3 q4u q4d q5 L1 L2 -> ->. unfold configure. cbn [oadd osub omap2].
  assert (ST : forall a b c d o e, stored lo hi [a; None; b; c; d] o e = Some (Pose (map (option_map normalizeAngle) [a; None; b; c; d]) false o e)).
  { intros. unfold stored. rewrite not_in_limits; [reflexivity|right; left; reflexivity|cbn; lia|cbn; lia]. }
  cbn [oopp option_map]. rewrite !ST. eexists. reflexivity.
Qed.

(** ** The choice *)
Definition travel (guess : list R) (p : pose) : R := match getDiffs guess p with Some ds => fold_left Rplus ds 0 | None => 0 end.
Definition travel2 (guess : list R) (p : pose) : R := match getDiffs guess p with Some ds => nth 1 ds 0 | None => 0 end.
Fixpoint sorted (m : list (R * pose)) : Prop :=
  match m with [] => True | (k, _) :: m' => (forall k' p', In (k', p') m' -> k < k') /\ sorted m' end.
Lemma insert_in : forall k p m x, In x (map_insert k p m) -> x = (k, p) \/ In x m.
Proof.
  intros k p m. induction m as [|[k' p'] m IH]; cbn; intros x H; [destruct H; auto|].
  destruct (Rltb k k'); [destruct H; auto|]. destruct (Rltb k' k); [|auto]. destruct H as [H|H]; [auto|]. apply IH in H. tauto.
Qed.
Lemma insert_keeps : forall k p m x, In x m -> In x (map_insert k p m).
Proof.
  intros k p m. induction m as [|[k' p'] m IH]; cbn; intros x H; [contradiction|].
  destruct (Rltb k k'); [right; exact H|]. destruct (Rltb k' k); [|exact H]. destruct H; [left; auto|right; auto].
Qed.
Lemma insert_key : forall k p m, exists p', In (k, p') (map_insert k p m).
Proof.
  intros k p m. induction m as [|[k' p'] m (p0 & IH)]; cbn; [exists p; left; reflexivity|].
  destruct (Rltb k k') eqn:E1; [exists p; left; reflexivity|]. destruct (Rltb k' k) eqn:E2; [exists p0; right; exact IH|].
  apply Rltb_false in E1, E2. assert (k' = k) by lra. subst. exists p'. left. reflexivity.
Qed.
Lemma insert_sorted : forall k p m, sorted m -> sorted (map_insert k p m).
Proof.
  intros k p m. induction m as [|[k' p'] m IH]; cbn; intros H; [split; auto; contradiction|]. destruct H as [H1 H2].
  destruct (Rltb k k') eqn:E1.
  - apply Rltb_true in E1. cbn. split; [|split; auto]. intros k0 p0 [I|I]; [injection I as <- _; auto|]. specialize (H1 k0 p0 I). lra.
  - destruct (Rltb k' k) eqn:E2; [|split; auto]. apply Rltb_true in E2. split; [|auto]. intros k0 p0 I. apply insert_in in I. destruct I as [I|I]; [injection I as -> _; auto|eauto].
Qed.
Lemma displaced : forall guess ps m m', displacements guess ps m = Some m' -> sorted m ->
  sorted m' /\ (forall x, In x m -> In x m') /\
  (forall k p, In (k, p) m' -> In (k, p) m \/ (In p ps /\ p_valid p = true /\ k = travel guess p)) /\
  (forall p, In p ps -> p_valid p = true -> exists p', In (travel guess p, p') m').
Proof.
  induction ps as [|p ps IH]; intros m m' H SO; cbn in H.
  - injection H as <-. repeat split; auto. intros p [].
  - destruct (p_valid p) eqn:V.
    + destruct (getDiffs guess p) as [ds|] eqn:D; [|discriminate].
      assert (TR : travel guess p = fold_left Rplus ds 0) by (unfold travel; rewrite D; reflexivity). rewrite <- TR in H.
      destruct (IH _ _ H (insert_sorted _ _ _ SO)) as (I1 & I2 & I3 & I4). split; [auto|]. split; [|split].
      * intros x X. apply I2, insert_keeps. exact X.
      * intros k p' I. destruct (I3 k p' I) as [J|(J1 & J2 & J3)]; [|right; cbn; auto]. apply insert_in in J. destruct J as [J|J]; [|auto].
        injection J as -> ->. right. cbn. auto.
      * intros p' [->|I] V'; [|eauto]. destruct (insert_key (travel guess p') p' m) as (p0 & P0). exists p0. apply I2. exact P0.
    + destruct (IH _ _ H SO) as (I1 & I2 & I3 & I4). split; [auto|]. split; [auto|]. split.
      * intros k p' I. destruct (I3 k p' I) as [J|(J1 & J2 & J3)]; [auto|right; cbn; auto].
      * intros p' [->|I] V'; [congruence|eauto].
Qed.
Theorem choice : forall guess ps p, findOptimal guess ps = Some (Some p) ->
  In p ps /\ p_valid p = true /\
  exists best, In best ps /\ p_valid best = true /\ (forall p', In p' ps -> p_valid p' = true -> travel guess best <= travel guess p') /\
    (p = best \/ p_orient p = p_orient best /\ travel2 guess p <= travel2 guess best /\
       forall p', In p' ps -> p_valid p' = true -> travel guess p' < travel guess p -> travel guess p' = travel guess best).
Proof.
  intros guess ps p H. unfold findOptimal in H. destruct (displacements guess ps []) as [m|] eqn:D; [|discriminate].
  destruct (displaced guess ps [] m D I) as (SO & _ & FROM & ALL).
  assert (FR : forall k p, In (k, p) m -> In p ps /\ p_valid p = true /\ k = travel guess p) by (intros k p0 J; destruct (FROM k p0 J) as [[]|]; auto).
  destruct m as [|[ka a] m]; [discriminate|]. destruct (FR ka a (or_introl eq_refl)) as (A1 & A2 & A3).
  assert (BEST : forall p', In p' ps -> p_valid p' = true -> travel guess a <= travel guess p').
  { intros p' I' V'. destruct (ALL p' I' V') as (p0 & [E|E]); [injection E as E _; lra|]. destruct SO as [SO _]. specialize (SO _ _ E). lra. }
  assert (ONE : Some (Some a) = Some (Some p) -> In p ps /\ p_valid p = true /\
     exists best, In best ps /\ p_valid best = true /\ (forall p', In p' ps -> p_valid p' = true -> travel guess best <= travel guess p') /\
    (p = best \/ p_orient p = p_orient best /\ travel2 guess p <= travel2 guess best /\
       forall p', In p' ps -> p_valid p' = true -> travel guess p' < travel guess p -> travel guess p' = travel guess best)).
  { intros [= <-]. split; [auto|]. split; [auto|]. exists a. auto. }
  destruct m as [|[kb b] m]; [exact (ONE H)|]. destruct (same_orient (p_orient b) (p_orient a)) eqn:SOR; [|exact (ONE H)].
  destruct (getDiffs guess a) as [da|] eqn:DA; [|discriminate]. destruct (getDiffs guess b) as [db|] eqn:DB; [|discriminate].
  set (cnd := Rltb (nth 1 db 0) (nth 1 da 0) || (Reqb (nth 1 db 0) (nth 1 da 0) && match p_elbow b with UP => true | DOWN => false end)) in H.
  destruct cnd eqn:CN; [|exact (ONE H)]. injection H as <-. destruct (FR kb b (or_intror (or_introl eq_refl))) as (B1 & B2 & B3).
  split; [auto|]. split; [auto|]. exists a. split; [auto|]. split; [auto|]. split; [auto|]. right.
  split; [destruct (p_orient a), (p_orient b); auto; discriminate|]. split.
  - unfold travel2. rewrite DA, DB. unfold cnd in CN. apply orb_true_iff in CN. destruct CN as [CN|CN].
    + apply Rltb_true in CN. lra.
    + apply andb_true_iff in CN. destruct CN as [CN _]. apply Reqb_true in CN. lra.
  - intros p' I' V' LT. destruct (ALL p' I' V') as (p0 & [E|[E|E]]); [injection E as E _; lra|injection E as E _; lra|].
    destruct SO as [_ [SO _]]. specialize (SO _ _ E). lra.
Qed.
Lemma chosen : forall guess ps, (5 <= length guess)%nat -> existsb p_valid ps = true -> (forall p, In p ps -> exists q, p_joints p = map Some q /\ length q = 5%nat) ->
  exists p, findOptimal guess ps = Some (Some p).
Proof.
  intros guess ps L E J.
  assert (GD : forall p, In p ps -> exists ds, getDiffs guess p = Some ds).
  { intros p I. destruct (J p I) as (q & Q1 & Q2). destruct (five q Q2) as (q1 & q2 & q3 & q4 & q5 & ->). unfold getDiffs. rewrite Q1.
    do 5 (destruct guess as [|? guess]; [cbn in L; lia|]). cbn. eauto. }
  assert (DS : exists m, displacements guess ps [] = Some m).
  { clear E J. revert GD. generalize (@nil (R * pose)) as m. induction ps as [|p ps IH]; intros m GD; cbn; [eauto|].
    destruct (GD p (or_introl eq_refl)) as (ds & ->). destruct (p_valid p); apply IH; intros p' I'; apply GD; right; exact I'. }
  destruct DS as (m & DS). unfold findOptimal. rewrite DS. destruct (displaced guess ps [] m DS I) as (_ & _ & FROM & ALL).
  apply existsb_exists in E. destruct E as (p & I1 & V). destruct (ALL p I1 V) as (p' & P').
  assert (FR : forall k p, In (k, p) m -> In p ps) by (intros k p0 K; destruct (FROM k p0 K) as [[]|[]]; auto).
  destruct m as [|[ka a] [|[kb b] m]]; [contradiction|eauto|].
  destruct (same_orient (p_orient b) (p_orient a)); [|eauto].
  destruct (GD a (FR ka a (or_introl eq_refl))) as (da & ->). destruct (GD b (FR kb b (or_intror (or_introl eq_refl)))) as (db & ->). eauto.
Qed.
