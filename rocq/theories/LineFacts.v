(** Proofs about the trajectories of KDL: the velocity profile. *)
From Coq Require Import Reals List Bool Lra Lia.
From Verif Require Import Kdl KdlFacts KdlRot KdlTraj LineSpec.
Open Scope R_scope.

(** ** Squares of positive parts *)
Definition pos_part (x : R) : R := Rmax 0 x.
Definition sq (x : R) : R := pos_part x * pos_part x.
Lemma pp_neg : forall x, x <= 0 -> pos_part x = 0.
Proof. intros. unfold pos_part. apply Rmax_left. lra. Qed.
Lemma pp_pos : forall x, 0 <= x -> pos_part x = x.
Proof. intros. unfold pos_part. apply Rmax_right. lra. Qed.
Lemma sq_neg : forall x, x <= 0 -> sq x = 0.
Proof. intros. unfold sq. rewrite pp_neg by auto. ring. Qed.
Lemma sq_pos : forall x, 0 <= x -> sq x = x * x.
Proof. intros. unfold sq. rewrite pp_pos by auto. ring. Qed.
Lemma sq_step : forall x h, Rabs (sq (x + h) - sq x - 2 * pos_part x * h) <= h * h.
Proof.
  intros x h. destruct (Rle_or_lt x 0) as [X|X]; destruct (Rle_or_lt (x + h) 0) as [Y|Y];
    rewrite ?(sq_neg x), ?(sq_pos x), ?(sq_neg (x + h)), ?(sq_pos (x + h)), ?(pp_neg x), ?(pp_pos x) by lra;
    apply Rabs_le; split; nra.
Qed.
Lemma sq_der : forall x, derivable_pt_lim sq x (2 * pos_part x).
Proof.
  intros x eps E. exists (mkposreal eps E). intros h H L. cbn in L. pose proof (sq_step x h) as B.
  replace ((sq (x + h) - sq x) / h - 2 * pos_part x) with ((sq (x + h) - sq x - 2 * pos_part x * h) / h) by (field; auto).
  unfold Rdiv. rewrite Rabs_mult, Rabs_inv. apply Rle_lt_trans with (Rabs h); auto.
  assert (0 < Rabs h) by (apply Rabs_pos_lt; auto). replace (h * h) with (Rabs h * Rabs h) in B by (rewrite <- Rabs_mult; apply Rabs_pos_eq; nra).
  apply Rmult_le_reg_r with (Rabs h); auto. rewrite Rmult_assoc, Rinv_l, Rmult_1_r by lra. exact B.
Qed.

(** ** The profile at full speed *)
Definition pos0 (t1 t2 u : R) : R := 5 * (sq u - sq (u - t1) - sq (u - t2) + sq (u - (t1 + t2))).
Definition vel0 (t1 t2 u : R) : R := 10 * (pos_part u - pos_part (u - t1) - pos_part (u - t2) + pos_part (u - (t1 + t2))).

Lemma pos0_der : forall t1 t2 u, derivable_pt_lim (pos0 t1 t2) u (vel0 t1 t2 u).
Proof.
  intros t1 t2 u. assert (G : forall c, derivable_pt_lim (fun u => sq (u - c)) u (2 * pos_part (u - c))).
  { intro c. replace (2 * pos_part (u - c)) with (2 * pos_part (u - c) * 1) by ring.
    apply (derivable_pt_lim_comp (fun u => u - c) sq u 1); [|apply sq_der].
    replace 1 with (1 - 0) by ring. apply derivable_pt_lim_minus; [apply derivable_pt_lim_id|apply derivable_pt_lim_const]. }
  unfold pos0. replace (vel0 t1 t2 u) with (5 * (2 * pos_part u - 2 * pos_part (u - t1) - 2 * pos_part (u - t2) + 2 * pos_part (u - (t1 + t2)))) by (unfold vel0; ring).
  apply (derivable_pt_lim_scal (fun u => sq u - sq (u - t1) - sq (u - t2) + sq (u - (t1 + t2)))).
  apply (derivable_pt_lim_plus (fun u => sq u - sq (u - t1) - sq (u - t2)) (fun u => sq (u - (t1 + t2)))); [|apply G].
  apply (derivable_pt_lim_minus (fun u => sq u - sq (u - t1)) (fun u => sq (u - t2))); [|apply G].
  apply (derivable_pt_lim_minus sq (fun u => sq (u - t1))); [apply sq_der|apply G].
Qed.

Section Profile.
Variables t1 t2 : R.
Hypothesis O : 0 <= t1 <= t2.

Lemma pos0_before : forall u, u <= 0 -> pos0 t1 t2 u = 0.
Proof. intros. unfold pos0. rewrite !sq_neg by lra. ring. Qed.
Lemma pos0_after : forall u, t1 + t2 <= u -> pos0 t1 t2 u = 10 * t1 * t2.
Proof. intros. unfold pos0. rewrite !sq_pos by lra. ring. Qed.
Lemma pos0_up : forall u, 0 <= u <= t1 -> pos0 t1 t2 u = 5 * u * u.
Proof. intros. unfold pos0. rewrite (sq_pos u), !sq_neg by lra. ring. Qed.
Lemma pos0_flat : forall u, t1 <= u <= t2 -> pos0 t1 t2 u = 10 * t1 * u - 5 * t1 * t1.
Proof. intros. unfold pos0. rewrite (sq_pos u), (sq_pos (u - t1)), !sq_neg by lra. ring. Qed.
Lemma pos0_down : forall u, t2 <= u <= t1 + t2 -> pos0 t1 t2 u = 10 * t1 * t2 - 5 * (t1 + t2 - u) * (t1 + t2 - u).
Proof. intros. unfold pos0. rewrite (sq_pos u), (sq_pos (u - t1)), (sq_pos (u - t2)), (sq_neg (u - (t1 + t2))) by lra. ring. Qed.
Lemma vel0_before : forall u, u <= 0 -> vel0 t1 t2 u = 0.
Proof. intros. unfold vel0. rewrite !pp_neg by lra. ring. Qed.
Lemma vel0_after : forall u, t1 + t2 <= u -> vel0 t1 t2 u = 0.
Proof. intros. unfold vel0. rewrite !pp_pos by lra. ring. Qed.
Lemma vel0_up : forall u, 0 <= u <= t1 -> vel0 t1 t2 u = 10 * u.
Proof. intros. unfold vel0. rewrite (pp_pos u), !pp_neg by lra. ring. Qed.
Lemma vel0_flat : forall u, t1 <= u <= t2 -> vel0 t1 t2 u = 10 * t1.
Proof. intros. unfold vel0. rewrite (pp_pos u), (pp_pos (u - t1)), !pp_neg by lra. ring. Qed.
Lemma vel0_down : forall u, t2 <= u <= t1 + t2 -> vel0 t1 t2 u = 10 * (t1 + t2 - u).
Proof. intros. unfold vel0. rewrite (pp_pos u), (pp_pos (u - t1)), (pp_pos (u - t2)), (pp_neg (u - (t1 + t2))) by lra. ring. Qed.

Lemma vel0_range : forall u, 0 <= vel0 t1 t2 u <= 10 * t1.
Proof.
  intro u. destruct (Rle_or_lt u 0); [rewrite vel0_before by lra; lra|]. destruct (Rle_or_lt u t1); [rewrite vel0_up by lra; lra|].
  destruct (Rle_or_lt u t2); [rewrite vel0_flat by lra; lra|]. destruct (Rle_or_lt u (t1 + t2)); [rewrite vel0_down by lra; lra|]. rewrite vel0_after by lra. lra.
Qed.
(** the velocity changes by at most 10 per unit of time *)
Lemma vel0_slope : forall u v, u <= v -> - (10 * (v - u)) <= vel0 t1 t2 v - vel0 t1 t2 u <= 10 * (v - u).
Proof.
  intros u v L.
  assert (C : forall x, (x <= 0 \/ 0 <= x <= t1 \/ t1 <= x <= t2 \/ t2 <= x <= t1 + t2 \/ t1 + t2 <= x)) by (intro x; lra).
  destruct (C u) as [U|[U|[U|[U|U]]]]; destruct (C v) as [W|[W|[W|[W|W]]]];
    rewrite ?(vel0_before u), ?(vel0_before v) by lra; rewrite ?(vel0_up u) by lra; rewrite ?(vel0_up v) by lra;
    rewrite ?(vel0_flat u) by lra; rewrite ?(vel0_flat v) by lra; rewrite ?(vel0_down u) by lra; rewrite ?(vel0_down v) by lra;
    rewrite ?(vel0_after u), ?(vel0_after v) by lra; lra.
Qed.
End Profile.

Lemma pos0_step : forall t1 t2, 0 <= t1 <= t2 -> forall u h, Rabs (pos0 t1 t2 (u + h) - pos0 t1 t2 u - vel0 t1 t2 u * h) <= 5 * (h * h).
Proof.
  intros t1 t2 O u h.
  assert (D : forall k c, derivable_pt_lim (fun x => pos0 t1 t2 (u + x) - vel0 t1 t2 u * x - k * (x * x)) c (vel0 t1 t2 (u + c) - vel0 t1 t2 u - k * (2 * c))).
  { intros k c. apply (derivable_pt_lim_minus (fun x => pos0 t1 t2 (u + x) - vel0 t1 t2 u * x) (fun x => k * (x * x))).
    - apply (derivable_pt_lim_minus (fun x => pos0 t1 t2 (u + x)) (fun x => vel0 t1 t2 u * x)).
      + replace (vel0 t1 t2 (u + c)) with (vel0 t1 t2 (u + c) * 1) by ring. apply (derivable_pt_lim_comp (fun x => u + x) (pos0 t1 t2) c 1); [|apply pos0_der].
        replace 1 with (0 + 1) by ring. apply derivable_pt_lim_plus; [apply derivable_pt_lim_const|apply derivable_pt_lim_id].
      + generalize (vel0 t1 t2 u). intro w. pose proof (derivable_pt_lim_scal (fun x => x) w c 1 (derivable_pt_lim_id c)) as H. rewrite Rmult_1_r in H. exact H.
    - apply (derivable_pt_lim_scal (fun x => x * x)). replace (2 * c) with (1 * c + c * 1) by ring.
      apply (derivable_pt_lim_mult (fun x => x) (fun x => x)); apply derivable_pt_lim_id. }
  assert (Q : forall k, (k = 5 \/ k = -5) -> exists c, (0 <= c <= h \/ h <= c <= 0) /\
    pos0 t1 t2 (u + h) - pos0 t1 t2 u - vel0 t1 t2 u * h - k * (h * h) = (vel0 t1 t2 (u + c) - vel0 t1 t2 u - k * (2 * c)) * h).
  { intros k _. destruct (Rtotal_order 0 h) as [L|[<-|L]].
    - destruct (MVT_cor2 _ _ 0 h L (fun c _ => D k c)) as (c & E & C). exists c. split; [lra|]. rewrite Rminus_0_r, Rplus_0_r in E. lra.
    - exists 0. split; [lra|]. rewrite !Rplus_0_r. ring.
    - destruct (MVT_cor2 _ _ h 0 L (fun c _ => D k c)) as (c & E & C). exists c. split; [lra|]. rewrite Rplus_0_r in E. lra. }
  apply Rabs_le. split.
  - destruct (Q (-5) ltac:(auto)) as (c & C & E). enough (0 <= (vel0 t1 t2 (u + c) - vel0 t1 t2 u - -5 * (2 * c)) * h) by lra. destruct C as [C|C].
    + apply Rmult_le_pos; [|lra]. pose proof (vel0_slope t1 t2 O u (u + c) ltac:(lra)). lra.
    + pose proof (vel0_slope t1 t2 O (u + c) u ltac:(lra)). assert (vel0 t1 t2 (u + c) - vel0 t1 t2 u - -5 * (2 * c) <= 0) by lra. nra.
  - destruct (Q 5 ltac:(auto)) as (c & C & E). enough ((vel0 t1 t2 (u + c) - vel0 t1 t2 u - 5 * (2 * c)) * h <= 0) by lra. destruct C as [C|C].
    + pose proof (vel0_slope t1 t2 O u (u + c) ltac:(lra)). assert (vel0 t1 t2 (u + c) - vel0 t1 t2 u - 5 * (2 * c) <= 0) by lra. nra.
    + pose proof (vel0_slope t1 t2 O (u + c) u ltac:(lra)). assert (0 <= vel0 t1 t2 (u + c) - vel0 t1 t2 u - 5 * (2 * c)) by lra. nra.
Qed.
Lemma pos0_mono : forall t1 t2, 0 <= t1 <= t2 -> forall u v, u <= v -> pos0 t1 t2 u <= pos0 t1 t2 v.
Proof.
  intros t1 t2 O u v [L|<-]; [|lra]. destruct (MVT_cor2 _ _ u v L (fun c _ => pos0_der t1 t2 c)) as (c & E & _).
  pose proof (vel0_range t1 t2 O c). nra.
Qed.

(** ** SetProfile *)
Lemma trap_set_line : forall L, 0 <= L -> exists t1 t2, 0 <= t1 <= t2 /\ 10 * t1 * t2 = L /\ (0 < L -> 0 < t1) /\ t1 <= 1 /\ t1 + t2 = least_time L /\
  trap_set 10 10 0 L = Trap 0 L (t1 + t2) (Some t1) (Some t2) 0 0 5 (-5 * t1 * t1) (10 * t1) 0 (-5 * t1 * t1 - 5 * t2 * t2) (10 * t1 + 10 * t2) (-5).
Proof.
  intros L P. unfold trap_set, least_time. rewrite !Rminus_0_r. replace (Rltb L 0) with false by (symmetry; apply Rltb_false; lra).
  replace (1 * 10 * (10 / 10 * (10 / 10)) / 2) with 5 by field. replace (10 / 10) with 1 by field.
  replace ((L - 2 * 5) / (1 * 10)) with ((L - 10) / 10) by field. destruct (Rltb 0 ((L - 10) / 10)) eqn:E.
  - apply Rltb_true in E. assert (10 < L) by lra. replace (Rleb L 10) with false by (symmetry; apply Rleb_false; lra).
    exists 1, (1 + (L - 10) / 10). split; [lra|]. split; [field|]. split; [lra|]. split; [lra|]. split; [field|]. cbv zeta. f_equal; try (f_equal; field); field.
  - apply Rltb_false in E. assert (L <= 10) by lra. replace (Rleb L 10) with true by (symmetry; apply Rleb_true; lra).
    replace (L / 1 / 10) with (L / 10) by field. set (t := sqrt (L / 10)). assert (T : t * t = L / 10) by (apply sqrt_def; lra). assert (T0 : 0 <= t) by apply sqrt_pos.
    exists t, t. split; [lra|]. split; [lra|]. split; [intro; apply sqrt_lt_R0; lra|]. split; [nra|]. split; [ring|]. cbv zeta. f_equal; field.
Qed.

(** ** SetProfileDuration *)
Lemma trap_line : forall L D, 0 < L -> 0 < D -> exists p t1 t2 k, trap_duration 10 10 0 L D = Some p /\
  0 < t1 <= t2 /\ 10 * t1 * t2 = L /\ t1 <= 1 /\ t1 + t2 = least_time L /\ tp_d p = Rmax D (least_time L) /\ 0 < k <= 1 /\ k * tp_d p = t1 + t2 /\
  forall t, trap_pos p t = pos0 t1 t2 (k * t) /\ trap_vel p t = k * vel0 t1 t2 (k * t).
Proof.
  intros L D P PD. destruct (trap_set_line L ltac:(lra)) as (t1 & t2 & O & E & N & O1 & LT & TS). specialize (N P).
  unfold trap_duration. rewrite TS. cbn [tp_d tp_start tp_end tp_t1 tp_t2 tp_a1 tp_a2 tp_a3 tp_b1 tp_b2 tp_b3 tp_c1 tp_c2 tp_c3].
  replace (Reqb D 0) with false by (symmetry; apply not_true_is_false; rewrite Reqb_true; lra).
  assert (O' : 0 <= t1 <= t2) by lra.
  destruct (Rltb 1 ((t1 + t2) / D)) eqn:K.
  - apply Rltb_true in K. assert (D < t1 + t2). { apply Rmult_lt_compat_r with (r := D) in K; auto. replace ((t1 + t2) / D * D) with (t1 + t2) in K by (field; lra). lra. }
    eexists; exists t1, t2, 1. split; [reflexivity|]. cbn [tp_d]. split; [lra|]. split; [exact E|]. split; [exact O1|]. split; [exact LT|].
    split; [rewrite <- LT, Rmax_right; lra|]. split; [lra|]. split; [ring|]. intro t. rewrite !Rmult_1_l.
    unfold trap_pos, trap_vel. cbn [tp_d tp_start tp_end tp_t1 tp_t2 tp_a1 tp_a2 tp_a3 tp_b1 tp_b2 tp_b3 tp_c1 tp_c2 tp_c3 below].
    destruct (Rltb t 0) eqn:T0; [apply Rltb_true in T0; rewrite pos0_before, vel0_before by lra; lra|apply Rltb_false in T0].
    destruct (Rltb t t1) eqn:T1; [apply Rltb_true in T1; rewrite pos0_up, vel0_up by lra; lra|apply Rltb_false in T1].
    destruct (Rltb t t2) eqn:T2; [apply Rltb_true in T2; rewrite pos0_flat, vel0_flat by lra; lra|apply Rltb_false in T2].
    destruct (Rleb t (t1 + t2)) eqn:T3; [apply Rleb_true in T3; rewrite pos0_down, vel0_down by lra; lra|apply Rleb_false in T3]. rewrite pos0_after, vel0_after by lra. lra.
  - apply Rltb_false in K. set (k := (t1 + t2) / D) in *. assert (k * D = t1 + t2) by (unfold k; field; lra).
    assert (K0 : 0 < k) by (unfold k; apply Rdiv_lt_0_compat; lra). assert (t1 + t2 <= D) by nra.
    eexists; exists t1, t2, k. split; [reflexivity|]. cbn [tp_d]. split; [lra|]. split; [exact E|]. split; [exact O1|]. split; [exact LT|].
    split; [rewrite <- LT, Rmax_left; lra|]. split; [lra|]. split; [auto|]. intro t.
    unfold trap_pos, trap_vel. cbn [tp_d tp_start tp_end tp_t1 tp_t2 tp_a1 tp_a2 tp_a3 tp_b1 tp_b2 tp_b3 tp_c1 tp_c2 tp_c3 below stretch].
    replace (Reqb k 0) with false by (symmetry; apply not_true_is_false; rewrite Reqb_true; lra). cbn [below].
    assert (S1 : forall x y, x < y / k -> k * x < y). { intros x y H1. apply Rmult_lt_compat_l with (r := k) in H1; auto. replace (k * (y / k)) with y in H1 by (field; lra). lra. }
    assert (S2 : forall x y, y / k <= x -> y <= k * x). { intros x y H1. apply Rmult_le_compat_l with (r := k) in H1; [|lra]. replace (k * (y / k)) with y in H1 by (field; lra). lra. }
    destruct (Rltb t 0) eqn:T0; [apply Rltb_true in T0; rewrite pos0_before, vel0_before by nra; split; [reflexivity|ring]|apply Rltb_false in T0].
    assert (0 <= k * t) by nra.
    destruct (Rltb t (t1 / k)) eqn:T1; [apply Rltb_true, S1 in T1; rewrite pos0_up, vel0_up by lra; split; ring|apply Rltb_false, S2 in T1].
    destruct (Rltb t (t2 / k)) eqn:T2; [apply Rltb_true, S1 in T2; rewrite pos0_flat, vel0_flat by lra; split; ring|apply Rltb_false, S2 in T2].
    destruct (Rleb t D) eqn:T3; [apply Rleb_true in T3|apply Rleb_false in T3].
    + assert (k * t <= t1 + t2) by nra. rewrite pos0_down, vel0_down by lra. split; ring.
    + assert (t1 + t2 <= k * t) by nra. rewrite pos0_after, vel0_after by lra. split; [lra|ring].
Qed.
(** a path of no length *)
Lemma trap_still : forall D, 0 < D -> exists p, trap_duration 10 10 0 0 D = Some p /\ tp_d p = Rmax D (least_time 0) /\ forall t, trap_pos p t = 0 /\ trap_vel p t = 0.
Proof.
  intros D PD. destruct (trap_set_line 0 ltac:(lra)) as (t1 & t2 & O & E & _ & _ & LT & TS).
  assert (Z : least_time 0 = 0). { unfold least_time. replace (Rleb 0 10) with true by (symmetry; apply Rleb_true; lra). replace (0 / 10) with 0 by field. rewrite sqrt_0. ring. }
  assert (t1 = 0 /\ t2 = 0) as [-> ->] by lra. unfold trap_duration. rewrite TS. cbn [tp_d tp_start tp_end tp_t1 tp_t2 tp_a1 tp_a2 tp_a3 tp_b1 tp_b2 tp_b3 tp_c1 tp_c2 tp_c3].
  replace (Reqb D 0) with false by (symmetry; apply not_true_is_false; rewrite Reqb_true; lra).
  replace ((0 + 0) / D) with 0 by (field; lra). replace (Rltb 1 0) with false by (symmetry; apply Rltb_false; lra).
  eexists. split; [reflexivity|]. cbn [tp_d]. split; [rewrite Z, Rmax_left; lra|]. intro t. unfold trap_pos, trap_vel.
  cbn [tp_d tp_start tp_end tp_t1 tp_t2 tp_a1 tp_a2 tp_a3 tp_b1 tp_b2 tp_b3 tp_c1 tp_c2 tp_c3 stretch].
  replace (Reqb 0 0) with true by (symmetry; apply Reqb_true; reflexivity). cbn [below].
  destruct (Rltb t 0); [lra|]. destruct (Rleb t D); split; ring.
Qed.
