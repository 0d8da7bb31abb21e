(** The line of the example and its timing. *)
From Coq Require Import Reals Lra List Bool Lia Psatz.
From Verif Require Import Kdl KdlFacts KdlRot KdlRotFacts KdlTraj LineSpec LineFacts Follow FollowSpec.
Open Scope R_scope.

Section Any.
Variables (V A : R).
Hypotheses (PV : 0 < V) (PA : 0 < A).

Lemma trap_set_any L : 0 <= L -> exists t1 t2, 0 <= t1 <= t2 /\ A * t1 * t2 = L /\ (0 < L -> 0 < t1) /\ A * t1 <= V /\ t1 + t2 = quickest V A L /\
  trap_set V A 0 L = Trap 0 L (t1 + t2) (Some t1) (Some t2) 0 0 (A / 2) (- (A / 2) * t1 * t1) (A * t1) 0 (- (A / 2) * t1 * t1 - A / 2 * t2 * t2) (A * t1 + A * t2) (- (A / 2)).
Proof.
  intros P. unfold trap_set, quickest. rewrite !Rminus_0_r. replace (Rltb L 0) with false by (symmetry; apply Rltb_false; lra).
  replace (1 * A * (V / A * (V / A)) / 2) with (V * V / A / 2) by (field; lra).
  replace ((L - 2 * (V * V / A / 2)) / (1 * V)) with (L / V - V / A) by (field; lra).
  assert (Q : V / A < L / V <-> V * V < A * L).
  { split; intro H.
    - apply Rmult_lt_compat_r with (r := A * V) in H; [|nra]. replace (V / A * (A * V)) with (V * V) in H by (field; lra). replace (L / V * (A * V)) with (A * L) in H by (field; lra). exact H.
    - apply Rmult_lt_reg_r with (r := A * V); [nra|]. replace (V / A * (A * V)) with (V * V) by (field; lra). replace (L / V * (A * V)) with (A * L) by (field; lra). exact H. }
  destruct (Rltb 0 (L / V - V / A)) eqn:E.
  - apply Rltb_true in E. assert (H : V * V < A * L) by (apply Q; lra). replace (Rleb (A * L) (V * V)) with false by (symmetry; apply Rleb_false; lra).
    assert (T0 : 0 < V / A) by (apply Rdiv_lt_0_compat; lra).
    exists (V / A), (L / V). split; [lra|]. split; [field; lra|]. split; [lra|]. split; [right; field; lra|]. split; [lra|]. cbv zeta.
    f_equal; try (f_equal; field; lra); field; lra.
  - apply Rltb_false in E. assert (H : A * L <= V * V) by (destruct (Rle_or_lt (A * L) (V * V)); [assumption|]; apply Q in H; lra). replace (Rleb (A * L) (V * V)) with true by (symmetry; apply Rleb_true; lra).
    replace (L / 1 / A) with (L / A) by (field; lra). set (t := sqrt (L / A)).
    assert (LA : 0 <= L / A) by (apply Rmult_le_pos; [lra|left; apply Rinv_0_lt_compat; lra]).
    assert (T : t * t = L / A) by (apply sqrt_def; lra). assert (T0 : 0 <= t) by apply sqrt_pos.
    assert (TA : A * (t * t) = L) by (rewrite T; field; lra).
    exists t, t. split; [lra|]. split; [lra|]. split; [intro; apply sqrt_lt_R0, Rdiv_lt_0_compat; lra|]. split; [nra|]. split; [ring|]. cbv zeta. f_equal; field; lra.
Qed.
Lemma trap_any L D : 0 < L -> 0 < D -> exists p t1 t2 k, trap_duration V A 0 L D = Some p /\
  0 < t1 <= t2 /\ A * t1 * t2 = L /\ A * t1 <= V /\ t1 + t2 = quickest V A L /\ tp_d p = Rmax D (quickest V A L) /\ 0 < k <= 1 /\ k * tp_d p = t1 + t2 /\
  forall t, trap_pos p t = A / 10 * pos0 t1 t2 (k * t).
Proof.
  intros P PD. destruct (trap_set_any L ltac:(lra)) as (t1 & t2 & O & E & N & O1 & LT & TS). specialize (N P).
  unfold trap_duration. rewrite TS. cbn [tp_d tp_start tp_end tp_t1 tp_t2 tp_a1 tp_a2 tp_a3 tp_b1 tp_b2 tp_b3 tp_c1 tp_c2 tp_c3].
  replace (Reqb D 0) with false by (symmetry; apply not_true_is_false; rewrite Reqb_true; lra).
  assert (O' : 0 <= t1 <= t2) by lra.
  destruct (Rltb 1 ((t1 + t2) / D)) eqn:K.
  - apply Rltb_true in K. assert (D < t1 + t2). { apply Rmult_lt_compat_r with (r := D) in K; auto. replace ((t1 + t2) / D * D) with (t1 + t2) in K by (field; lra). lra. }
    eexists; exists t1, t2, 1. split; [reflexivity|]. cbn [tp_d]. split; [lra|]. split; [exact E|]. split; [exact O1|]. split; [exact LT|].
    split; [rewrite <- LT, Rmax_right; lra|]. split; [lra|]. split; [ring|]. intro t. rewrite !Rmult_1_l.
    unfold trap_pos. cbn [tp_d tp_start tp_end tp_t1 tp_t2 tp_a1 tp_a2 tp_a3 tp_b1 tp_b2 tp_b3 tp_c1 tp_c2 tp_c3 below].
    destruct (Rltb t 0) eqn:T0; [apply Rltb_true in T0; rewrite pos0_before by lra; lra|apply Rltb_false in T0].
    destruct (Rltb t t1) eqn:T1; [apply Rltb_true in T1; rewrite pos0_up by lra; field|apply Rltb_false in T1].
    destruct (Rltb t t2) eqn:T2; [apply Rltb_true in T2; rewrite pos0_flat by lra; field|apply Rltb_false in T2].
    destruct (Rleb t (t1 + t2)) eqn:T3; [apply Rleb_true in T3; rewrite pos0_down by lra; field|apply Rleb_false in T3]. rewrite pos0_after by lra. rewrite <- E. field.
  - apply Rltb_false in K. set (k := (t1 + t2) / D) in *. assert (k * D = t1 + t2) by (unfold k; field; lra).
    assert (K0 : 0 < k) by (unfold k; apply Rdiv_lt_0_compat; lra). assert (t1 + t2 <= D) by nra.
    eexists; exists t1, t2, k. split; [reflexivity|]. cbn [tp_d]. split; [lra|]. split; [exact E|]. split; [exact O1|]. split; [exact LT|].
    split; [rewrite <- LT, Rmax_left; lra|]. split; [lra|]. split; [auto|]. intro t.
    unfold trap_pos. cbn [tp_d tp_start tp_end tp_t1 tp_t2 tp_a1 tp_a2 tp_a3 tp_b1 tp_b2 tp_b3 tp_c1 tp_c2 tp_c3 below stretch].
    replace (Reqb k 0) with false by (symmetry; apply not_true_is_false; rewrite Reqb_true; lra). cbn [below].
    assert (S1 : forall x y, x < y / k -> k * x < y). { intros x y H1. apply Rmult_lt_compat_l with (r := k) in H1; auto. replace (k * (y / k)) with y in H1 by (field; lra). lra. }
    assert (S2 : forall x y, y / k <= x -> y <= k * x). { intros x y H1. apply Rmult_le_compat_l with (r := k) in H1; [|lra]. replace (k * (y / k)) with y in H1 by (field; lra). lra. }
    destruct (Rltb t 0) eqn:T0; [apply Rltb_true in T0; rewrite pos0_before by nra; ring|apply Rltb_false in T0].
    assert (0 <= k * t) by nra.
    destruct (Rltb t (t1 / k)) eqn:T1; [apply Rltb_true, S1 in T1; rewrite pos0_up by lra; field|apply Rltb_false, S2 in T1].
    destruct (Rltb t (t2 / k)) eqn:T2; [apply Rltb_true, S1 in T2; rewrite pos0_flat by lra; field|apply Rltb_false, S2 in T2].
    destruct (Rleb t D) eqn:T3; [apply Rleb_true in T3|apply Rleb_false in T3].
    + assert (k * t <= t1 + t2) by nra. rewrite pos0_down by lra. field.
    + assert (t1 + t2 <= k * t) by nra. rewrite pos0_after by lra. rewrite <- E. field.
Qed.
End Any.

Lemma pos0_lipschitz t1 t2 : 0 <= t1 <= t2 -> forall u v, u <= v -> 0 <= pos0 t1 t2 v - pos0 t1 t2 u <= 10 * t1 * (v - u).
Proof.
  intros O u v [L|<-]; [|lra]. destruct (MVT_cor2 _ _ u v L (fun c _ => pos0_der t1 t2 c)) as (c & E & _).
  pose proof (vel0_range t1 t2 O c). rewrite E. split; [apply Rmult_le_pos; lra|apply Rmult_le_compat_r; lra].
Qed.
Lemma pos0_left t1 t2 : 0 <= t1 <= t2 -> forall u, u <= t1 + t2 -> 10 * t1 * t2 - pos0 t1 t2 u <= 5 * ((t1 + t2 - u) * (t1 + t2 - u)).
Proof.
  intros O u H. pose proof (pos0_step t1 t2 O (t1 + t2) (u - (t1 + t2))) as B. rewrite (pos0_after t1 t2 O (t1 + t2)) in B by lra.
  rewrite (vel0_after t1 t2 O (t1 + t2)) in B by lra. replace (t1 + t2 + (u - (t1 + t2))) with u in B by ring.
  apply Rabs_def2 in B || idtac. assert (- (5 * ((u - (t1 + t2)) * (u - (t1 + t2)))) <= pos0 t1 t2 u - 10 * t1 * t2 - 0 * (u - (t1 + t2))).
  { revert B. unfold Rabs. destruct (Rcase_abs _); lra. }
  nra.
Qed.

(** *** the path *)
Definition way : vec := V (15 / 100) (1 / 10) (1 / 10).
Lemma way_norm : norm way = way_length.
Proof. unfold norm, way_length, dot, way. cbn [vx vy vz]. f_equal. field. Qed.
Lemma way_length_bounds : 206 / 1000 < way_length < 207 / 1000.
Proof. unfold way_length. split; [rewrite <- (sqrt_square (206 / 1000)) by lra|rewrite <- (sqrt_square (207 / 1000)) by lra]; apply sqrt_lt_1; lra. Qed.
Lemma still_rot : GetRotAngle mid = (V 0 0 1, 0).
Proof.
  unfold GetRotAngle. cbn [mid m00 m01 m02 m10 m11 m12 m20 m21 m22]. pose proof kdl_eps_pos as EP.
  replace (0 - 0) with 0 by ring. replace (0 + 0) with 0 by ring. replace (1 + 1 + 1 - 3) with 0 by ring. rewrite Rabs_R0.
  replace (Rltb 0 kdl_eps) with true by (symmetry; apply Rltb_true; lra). replace (Rltb 0 (10 * kdl_eps)) with true by (symmetry; apply Rltb_true; lra). reflexivity.
Qed.
Lemma the_path start : rigid start -> pt_len (path_line start (goal start) (1 / 10)) = way_length /\
  forall s, path_pos (path_line start (goal start) (1 / 10)) s = on_line start (s / way_length).
Proof.
  intros RS. pose proof way_length_bounds as WB. unfold path_line, mk_path, goal. cbn [fM fp].
  assert (D : vsub (vadd (fp start) (V (15 / 100) (1 / 10) (1 / 10))) (fp start) = way) by (unfold way; destruct (fp start); unfold vsub, vadd; cbn; f_equal; ring).
  rewrite D, way_norm. rewrite (rot_TM _ RS), still_rot. cbn [fst snd].
  replace (Rltb way_length kdl_eps) with false by (symmetry; apply Rltb_false; unfold kdl_eps; lra).
  replace (Reqb 0 0) with true by (symmetry; apply Reqb_true; reflexivity). cbn [negb andb].
  replace (Reqb way_length 0) with false by (symmetry; apply not_true_is_false; rewrite Reqb_true; lra). cbn [negb].
  split; [reflexivity|]. intro s. unfold path_pos, on_line. cbn [pt_start pt_axis pt_dir pt_lin pt_rot pt_len].
  f_equal.
  - replace (s * (0 / way_length)) with 0 by (field; lra). rewrite Rot2_zero, mm_id_r. reflexivity.
  - f_equal. unfold normalize. rewrite way_norm. replace (Rltb way_length kdl_eps) with false by (symmetry; apply Rltb_false; unfold kdl_eps; lra).
    unfold way, vscale. cbn [vx vy vz]. f_equal; field; lra.
Qed.

Theorem the_line : forall start maxVel duration, rigid start -> 0 < maxVel -> 0 < duration ->
  let T := Rmax duration (quickest maxVel (2 / 10) way_length) in
  exists r : R -> R, (forall t, along start maxVel duration t = Some (on_line start (r t))) /\
    (forall t, t <= 0 -> r t = 0) /\ (forall t, T <= t -> r t = 1) /\ (forall t, 0 <= r t <= 1) /\
    (forall u v, u <= v -> 0 <= (r v - r u) * way_length <= maxVel * (v - u)) /\
    (forall t, t <= T -> (1 - r t) * way_length <= / 10 * ((T - t) * (T - t))).
Proof.
  intros start V D RS PV PD T. pose proof way_length_bounds as WB. destruct (the_path start RS) as [PL PP].
  destruct (trap_any V (2 / 10) PV ltac:(lra) way_length D ltac:(lra) PD) as (p & t1 & t2 & k & TD & O & E & O1 & LT & DT & K & KD & TP).
  fold T in DT. rewrite DT in KD. assert (O' : 0 <= t1 <= t2) by lra.
  assert (Tpos : 0 < T) by (unfold T; pose proof (Rmax_l D (quickest V (2 / 10) way_length)); lra).
  set (r := fun t => 2 / 10 / 10 * pos0 t1 t2 (k * t) / way_length). exists r.
  assert (RW : forall t, r t * way_length = / 50 * pos0 t1 t2 (k * t)) by (intro t; unfold r; field; lra).
  assert (LIP : forall u v, u <= v -> 0 <= (r v - r u) * way_length <= V * (v - u)).
  { intros u v H. rewrite Rmult_minus_distr_r, !RW. pose proof (pos0_lipschitz t1 t2 O' (k * u) (k * v) ltac:(nra)) as B.
    split; [lra|]. assert (W : 0 <= v - u) by lra. assert (X : 0 <= k * (v - u) <= v - u) by nra.
    assert (Y : 2 / 10 * t1 * (k * (v - u)) <= V * (v - u)). { apply Rle_trans with (V * (k * (v - u))); [apply Rmult_le_compat_r; lra|apply Rmult_le_compat_l; lra]. }
    replace (10 * t1 * (k * v - k * u)) with (50 * (2 / 10 * t1 * (k * (v - u)))) in B by field. lra. }
  assert (R0 : forall t, t <= 0 -> r t = 0) by (intros t H; unfold r; rewrite pos0_before by nra; field; lra).
  assert (R1 : forall t, T <= t -> r t = 1).
  { intros t H. unfold r. rewrite pos0_after by nra. replace (2 / 10 / 10 * (10 * t1 * t2)) with (2 / 10 * t1 * t2) by field. rewrite E. field. lra. }
  assert (MONO : forall u v, u <= v -> r u <= r v) by (intros u v H; pose proof (LIP u v H); nra).
  split; [intro t; unfold along; rewrite PL, TD; cbn [option_map]; rewrite PP, TP; reflexivity|].
  split; [exact R0|]. split; [exact R1|]. split.
  { intro t. split.
    - destruct (Rle_or_lt t 0); [rewrite R0 by lra; lra|]. rewrite <- (R0 0) by lra. apply MONO. lra.
    - destruct (Rle_or_lt T t); [rewrite R1 by lra; lra|]. rewrite <- (R1 T) by lra. apply MONO. lra. }
  split; [exact LIP|].
  intros t H. rewrite Rmult_minus_distr_r, RW, Rmult_1_l. pose proof (pos0_left t1 t2 O' (k * t) ltac:(nra)) as B. rewrite <- KD in B.
  assert (C : (k * T - k * t) * (k * T - k * t) <= (T - t) * (T - t)). { replace ((k * T - k * t) * (k * T - k * t)) with (k * k * ((T - t) * (T - t))) by ring. assert (S : 0 <= (T - t) * (T - t)) by apply Rle_0_sqr. rewrite <- (Rmult_1_l ((T - t) * (T - t))) at 2. apply Rmult_le_compat_r; [exact S|]. nra. }
  replace (10 * t1 * t2) with (50 * (2 / 10 * t1 * t2)) in B by field. rewrite E in B. lra.
Qed.
