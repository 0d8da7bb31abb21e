(** A target within reach by a hundredth of a millimetre is solved, whatever the rounding. *)
From Coq Require Import List ZArith Reals Lia Lra Psatz Bool.
From Flocq Require Import Core IEEE754.BinarySingleNaN.
From Verif Require Import F64 F64Facts RoundedFacts AsibotF64 AsibotF64Spec.
Import ListNotations.
Open Scope R_scope.

Definition dl : R := / 100000000000000.        (* 1e-14 *)
Lemma rnd_d : forall x, Rabs x <= 90 -> Rabs (rnd x - x) <= dl.
Proof. intros x H. pose proof (rnd_err x). pose proof tiny_small. pose proof u_pos. unfold u, dl in *. nra. Qed.

Lemma abs_of : forall a b, - b <= a <= b -> Rabs a <= b.
Proof. intros. apply Rabs_le. lra. Qed.
Lemma of_abs : forall a b, Rabs a <= b -> - b <= a <= b.
Proof. intros a b H. apply Rabs_le_inv in H. lra. Qed.
Ltac opn := repeat match goal with H : Rabs _ <= _ |- _ => apply of_abs in H end.
Ltac small := pose proof huge_big; apply abs_of; opn; nra.

(** each operation on numbers of at most 90, with what is known of its result *)
Lemma add_d : forall x y, finite x = true -> finite y = true -> Rabs (val x + val y) <= 90 -> finite (fadd x y) = true /\ Rabs (val (fadd x y) - (val x + val y)) <= dl.
Proof. intros x y A B H. destruct (fadd_ok x y A B) as (F & V). { pose proof huge_big. lra. } split; [exact F|]. rewrite V. now apply rnd_d. Qed.
Lemma sub_d : forall x y, finite x = true -> finite y = true -> Rabs (val x - val y) <= 90 -> finite (fsub x y) = true /\ Rabs (val (fsub x y) - (val x - val y)) <= dl.
Proof. intros x y A B H. destruct (fsub_ok x y A B) as (F & V). { pose proof huge_big. lra. } split; [exact F|]. rewrite V. now apply rnd_d. Qed.
Lemma mul_d : forall x y, finite x = true -> finite y = true -> Rabs (val x * val y) <= 90 -> finite (fmul x y) = true /\ Rabs (val (fmul x y) - (val x * val y)) <= dl.
Proof. intros x y A B H. destruct (fmul_ok x y A B) as (F & V). { pose proof huge_big. lra. } split; [exact F|]. rewrite V. now apply rnd_d. Qed.
Lemma sq_d : forall x b, finite x = true -> Rabs (val x) <= b -> b <= 9 -> finite (fmul x x) = true /\ Rabs (val (fmul x x) - val x * val x) <= dl.
Proof. intros x b A H B. apply mul_d; try assumption. opn. apply abs_of. nra. Qed.
Lemma sqrt_d : forall x, finite x = true -> 0 <= val x <= 90 -> finite (fsqrt x) = true /\ Rabs (val (fsqrt x) - sqrt (val x)) <= dl.
Proof.
  intros x A H. destruct (fsqrt_ok x A) as (F & V); [lra|]. split; [exact F|]. rewrite V. apply rnd_d. rewrite Rabs_pos_eq by apply sqrt_pos.
  apply Rle_trans with (sqrt (90 * 90)); [apply sqrt_le_1_alt; lra|]. rewrite sqrt_square; lra.
Qed.
Lemma sq_nonneg : forall x, finite x = true -> Rabs (val x) <= 9 -> 0 <= val (fmul x x).
Proof. intros x A H. destruct (fmul_ok x x A A) as (F & V). { opn. small. } rewrite V. apply rnd_pos. nra. Qed.
Lemma add_nonneg : forall x y, finite x = true -> finite y = true -> Rabs (val x + val y) <= 90 -> 0 <= val x -> 0 <= val y -> 0 <= val (fadd x y).
Proof. intros x y A B H P Q. destruct (fadd_ok x y A B) as (F & V). { pose proof huge_big. lra. } rewrite V. apply rnd_pos. lra. Qed.

Lemma sqrt_below : forall x b, 0 <= b -> x <= b * b -> sqrt x <= b.
Proof. intros x b B H. rewrite <- (sqrt_square b B). now apply sqrt_le_1_alt. Qed.
Lemma sqrt_close : forall x r e, 0 <= x -> 0 <= r -> 0 < e -> Rabs (x - r * r) <= e * e -> Rabs (sqrt x - r) <= e.
Proof.
  intros x r e X P E H. pose proof (sqrt_pos x). pose proof (sqrt_sqrt x X) as S. set (q := sqrt x) in *. rewrite <- S in H. opn. apply abs_of.
  split; [destruct (Rle_or_lt (- e) (q - r)); [assumption|]; nra|destruct (Rle_or_lt (q - r) e); [assumption|]; nra].
Qed.

(** the pure geometry *)
Lemma triangle' : forall a b c s d, 0 <= d -> c * c + s * s = 1 -> a * a + b * b = d * d -> forall l, 0 <= l ->
  (a + l * s) * (a + l * s) + (b + l * c) * (b + l * c) <= (d + l) * (d + l).
Proof.
  intros a b c s d D CS N l L.
  assert (E : (a * s + b * c) * (a * s + b * c) + (a * c - b * s) * (a * c - b * s) = d * d).
  { replace ((a * s + b * c) * (a * s + b * c) + (a * c - b * s) * (a * c - b * s)) with ((a * a + b * b) * (c * c + s * s)) by ring. rewrite CS, N. ring. }
  assert (K : a * s + b * c <= d) by (destruct (Rle_or_lt (a * s + b * c) d); [assumption|exfalso; pose proof (Rle_0_sqr (a * c - b * s)) as Q; unfold Rsqr in Q; nra]).
  replace ((a + l * s) * (a + l * s) + (b + l * c) * (b + l * c)) with (a * a + b * b + 2 * l * (a * s + b * c) + l * l * (c * c + s * s)) by ring. rewrite CS, N. nra.
Qed.

Lemma sq_mono : forall a b, - b <= a <= b -> 0 <= a * a <= b * b.
Proof. intros. split; nra. Qed.
Lemma sq_inv : forall a b, 0 <= b -> a * a <= b * b -> - b <= a <= b.
Proof. intros. split; nra. Qed.
Lemma sq_up : forall p r e d, 0 <= r -> 0 <= p <= r + e -> 0 <= e -> e * e <= d -> p * p <= r * r + 2 * e * r + d.
Proof. intros. assert (p * p <= (r + e) * (r + e)) by nra. lra. Qed.
Lemma sq_up' : forall p r e b, - b <= r <= b -> r - e <= p <= r + e -> 0 <= e <= 1 -> p * p <= r * r + e * (2 * b + 1).
Proof. intros. replace (p * p) with (r * r + (p - r) * (2 * r + (p - r))) by ring. set (k := p - r) in *. assert (- e <= k <= e) by (unfold k; lra). nra. Qed.
Lemma room1 : forall p q r K, r <= K -> 2 / 10 <= K -> q <= (K - / 100000) * (K - / 100000) -> p <= q + 39 / 100000000 * r + / 100000000000 -> p <= (K - / 200000) * (K - / 200000).
Proof. intros. replace ((K - / 200000) * (K - / 200000)) with (K * K - / 100000 * K + / 40000000000) by field. replace ((K - / 100000) * (K - / 100000)) with (K * K - / 50000 * K + / 10000000000) in * by field. lra. Qed.
Lemma room2 : forall p d K, / 100000 <= d <= K - / 100000 -> 2 / 10 <= K <= 2 -> p <= d * d + 5 / 10000000 * d -> p <= (K - / 200000) * (K - / 200000).
Proof. intros p d K D B H. assert (d * d <= (K - / 100000) * (K - / 100000)) by nra. replace ((K - / 200000) * (K - / 200000)) with (K * K - / 100000 * K + / 40000000000) by field. replace ((K - / 100000) * (K - / 100000)) with (K * K - / 50000 * K + / 10000000000) in * by field. lra. Qed.
Lemma diff_sq : forall p w D e, - D <= w <= D -> - e <= p - w <= e -> 0 <= e -> - (2 * e * D + e * e) <= p * p - w * w <= 2 * e * D + e * e.
Proof.
  intros p w D e W P E. replace (p * p - w * w) with (2 * ((p - w) * w) + (p - w) * (p - w)) by ring. set (k := p - w) in *.
  assert (- (e * D) <= k * w <= e * D) by (split; nra). assert (0 <= k * k <= e * e) by (apply sq_mono; lra). split; nra.
Qed.
Lemma prod_b : forall a b p q, 0 <= a <= p -> - q <= b <= q -> - (p * q) <= a * b <= p * q.
Proof. intros. split; nra. Qed.
Lemma two_pos : forall a b p q, 0 <= p -> 0 <= q -> p <= a -> q <= b -> p * q <= a * b.
Proof. intros. nra. Qed.
Lemma gap1 : forall a b D, a - b + / 100000 <= D -> b - a + / 100000 <= D -> D * D - (a - b) * (a - b) >= / 100000 * D.
Proof. intros a b D P Q. replace (D * D - (a - b) * (a - b)) with ((D - (a - b)) * (D + (a - b))) by ring. destruct (Rle_or_lt a b); nra. Qed.
Lemma gap2 : forall K D, 0 <= D -> D <= K - / 100000 -> K * K - D * D >= / 100000 * D.
Proof. intros K D P Q. nra. Qed.

Section Margin.
  Variables (m : libm) (s : links) (x y z oy : f64).
  Hypothesis ACC : accurate m.
  Hypothesis LEN : lengths s.
  Hypothesis Fx : finite x = true. Hypothesis Fy : finite y = true. Hypothesis Fz : finite z = true. Hypothesis Fo : finite oy = true.
  Hypothesis Bo : -10 <= val oy <= 10.
  Let D := wrist_distance s (val x) (val y) (val z) (val oy).
  Hypothesis RE : reachable s (/ 100000) D.

  Let a0 := val (A0 s). Let a1 := val (A1 s). Let a2 := val (A2 s). Let a3 := val (A3 s).
  Let r := sqrt (val x * val x + val y * val y).
  Let h := val z - a0.
  Let sn := sin (val oy). Let cs := cos (val oy).
  Let wr := r - a3 * sn. Let wh := h - a3 * cs.

  Lemma r_pos : 0 <= r. Proof. apply sqrt_pos. Qed.
  Lemma r_sq : r * r = val x * val x + val y * val y.
  Proof. apply sqrt_sqrt. nra. Qed.
  Lemma D_sq : D * D = wr * wr + wh * wh.
  Proof. unfold D, wrist_distance. apply sqrt_sqrt. apply Rplus_le_le_0_compat; apply Rle_0_sqr. Qed.
  Lemma D_range : / 100000 <= D /\ D <= 2 /\ D <= a1 + a2 - / 100000 /\ a1 - a2 + / 100000 <= D /\ a2 - a1 + / 100000 <= D.
  Proof.
    destruct LEN as (_ & _ & _ & _ & _ & B1 & B2 & _). destruct RE as (R1 & R2). fold a1 in B1, R1, R2; fold a2 in B2, R1, R2.
    pose proof (Rabs_pos (a1 - a2)). pose proof (Rle_abs (a1 - a2)). pose proof (Rle_abs (- (a1 - a2))) as Q. rewrite Rabs_Ropp in Q. lra.
  Qed.
  Lemma trig1 : cs * cs + sn * sn = 1.
  Proof. pose proof (sin2_cos2 (val oy)) as Q. unfold Rsqr in Q. fold sn in Q. fold cs in Q. lra. Qed.
  Lemma trig : -1 <= sn <= 1 /\ -1 <= cs <= 1.
  Proof. pose proof trig1. split; split; nra. Qed.
  Lemma w_range : - D <= wr <= D /\ - D <= wh <= D.
  Proof. pose proof D_sq. pose proof D_range. split; split; nra. Qed.
  Lemma a3_range : 0 <= a3 <= 1. Proof. apply LEN. Qed.
  Lemma a0_range : 0 <= a0 <= 1. Proof. apply LEN. Qed.
  Lemma a1_range : / 10 <= a1 <= 1. Proof. apply LEN. Qed.
  Lemma a2_range : / 10 <= a2 <= 1. Proof. apply LEN. Qed.
  Lemma tool : 0 <= a3 * sn + a3 /\ a3 * sn <= a3 /\ - a3 <= a3 * cs <= a3.
  Proof. pose proof trig. pose proof a3_range. repeat split; nra. Qed.
  Lemma r_range : r <= 3. Proof. pose proof tool. pose proof w_range. pose proof D_range. pose proof a3_range. unfold wr in *. lra. Qed.
  Lemma h_range : -3 <= h <= 3. Proof. pose proof tool. pose proof w_range. pose proof D_range. pose proof a3_range. unfold wh in *. lra. Qed.
  Lemma xy_range : -3 <= val x <= 3 /\ -3 <= val y <= 3.
  Proof. pose proof r_sq. pose proof r_range. pose proof r_pos. split; split; nra. Qed.
  Lemma z_range : -4 <= val z <= 4.
  Proof. pose proof h_range. pose proof a0_range. unfold h in *. lra. Qed.

  (** 352: prPd *)
  Let prPd := fsqrt (fadd (fmul x x) (fmul y y)).
  Lemma pr_ok : finite prPd = true /\ 0 <= val prPd /\ Rabs (val prPd - r) <= 19 / 100000000.
  Proof.
    pose proof xy_range as (X & Y). pose proof r_sq as RS. pose proof r_range. pose proof r_pos.
    destruct (sq_d x 3 Fx) as (F1 & V1); [apply abs_of; lra|lra|]. destruct (sq_d y 3 Fy) as (F2 & V2); [apply abs_of; lra|lra|].
    assert (P1 : 0 <= val (fmul x x)) by (apply sq_nonneg; [assumption|apply abs_of; lra]). assert (P2 : 0 <= val (fmul y y)) by (apply sq_nonneg; [assumption|apply abs_of; lra]).
    opn. assert (Q : val x * val x + val y * val y <= 9) by (pose proof (sq_mono r 3); lra). assert (0 <= val x * val x) by apply Rle_0_sqr. assert (0 <= val y * val y) by apply Rle_0_sqr. unfold dl in *.
    destruct (add_d _ _ F1 F2) as (F3 & V3); [apply abs_of; lra|]. pose proof (add_nonneg _ _ F1 F2 ltac:(apply abs_of; lra) P1 P2) as P3.
    opn. unfold dl in *. destruct (sqrt_d _ F3) as (F4 & V4); [lra|]. fold prPd in F4, V4.
    assert (C : Rabs (sqrt (val (fadd (fmul x x) (fmul y y))) - r) <= 18 / 100000000).
    { apply sqrt_close; try assumption; try lra. apply abs_of. rewrite RS. lra. }
    split; [exact F4|]. unfold dl in V4. split.
    - unfold prPd. destruct (fsqrt_ok _ F3 P3) as (_ & ->). apply rnd_pos, sqrt_pos.
    - opn. apply abs_of. lra.
  Qed.
  (** 353: phPd *)
  Let phPd := fsub z (A0 s).
  Lemma ph_ok : finite phPd = true /\ Rabs (val phPd - h) <= dl.
  Proof. pose proof z_range. pose proof a0_range. apply sub_d; [assumption|apply LEN|]. fold a0. apply abs_of. lra. Qed.

  (** 356: the first test *)
  Lemma sum3 : finite (fadd (fadd (A1 s) (A2 s)) (A3 s)) = true /\ a1 + a2 + a3 - 2 * dl <= val (fadd (fadd (A1 s) (A2 s)) (A3 s)) /\
    finite (fadd (A1 s) (A2 s)) = true /\ a1 + a2 - dl <= val (fadd (A1 s) (A2 s)).
  Proof.
    pose proof a1_range. pose proof a2_range. pose proof a3_range. destruct (add_d (A1 s) (A2 s)) as (F & V); [apply LEN|apply LEN|fold a1 a2; apply abs_of; lra|].
    fold a1 a2 in V. opn. unfold dl in *. destruct (add_d (fadd (A1 s) (A2 s)) (A3 s)) as (F' & V'); [exact F|apply LEN|fold a3; apply abs_of; lra|]. fold a3 in V'. opn. unfold dl in *.
    repeat split; try assumption; lra.
  Qed.
  Lemma test1 : fltb (fadd (fadd (A1 s) (A2 s)) (A3 s)) (fsqrt (fadd (fmul prPd prPd) (fmul phPd phPd))) = false.
  Proof.
    pose proof r_range. pose proof r_pos. pose proof h_range. destruct pr_ok as (F1 & P1 & V1). destruct ph_ok as (F2 & V2). pose proof a1_range. pose proof a2_range. pose proof a3_range.
    destruct D_range as (D1 & D2 & D3 & _). opn. unfold dl in *.
    destruct (sq_d prPd 4 F1) as (F3 & V3); [apply abs_of; lra|lra|]. destruct (sq_d phPd 4 F2) as (F4 & V4); [apply abs_of; lra|lra|].
    assert (P3 : 0 <= val (fmul prPd prPd)) by (apply sq_nonneg; [assumption|apply abs_of; lra]). assert (P4 : 0 <= val (fmul phPd phPd)) by (apply sq_nonneg; [assumption|apply abs_of; lra]).
    opn. unfold dl in *. assert (Q1 : val prPd * val prPd <= r * r + 38 / 100000000 * r + / 10000000000000) by (pose proof (sq_up (val prPd) r (19 / 100000000) (/ 10000000000000)); lra). assert (Q2 : val phPd * val phPd <= h * h + / 1000000000000) by (pose proof (sq_up' (val phPd) h (/ 100000000000000) 3); lra).
    assert (Q3 : r * r <= 9) by (pose proof (sq_mono r 3); lra). assert (Q4 : h * h <= 9) by (pose proof (sq_mono h 3); lra).
    destruct (add_d _ _ F3 F4) as (F5 & V5); [apply abs_of; lra|]. pose proof (add_nonneg _ _ F3 F4 ltac:(apply abs_of; lra) P3 P4) as P5. opn. unfold dl in *.
    assert (T : r * r + h * h <= (D + a3) * (D + a3)).
    { pose proof (triangle' wr wh cs sn D ltac:(lra) trig1 (eq_sym D_sq) a3 ltac:(lra)) as T. unfold wr, wh in T. replace (r - a3 * sn + a3 * sn) with r in T by ring. replace (h - a3 * cs + a3 * cs) with h in T by ring. exact T. }
    set (K := a1 + a2 + a3) in *.
    assert (T1 : r * r + h * h <= (K - / 100000) * (K - / 100000)). { apply Rle_trans with (1 := T). assert (D + a3 <= K - / 100000) by (unfold K; lra). apply sq_mono. lra. }
    assert (HH0 : 0 <= h * h) by (pose proof (sq_mono h 3); lra). assert (RK : r <= K) by (pose proof (sq_inv r (K - / 100000)); unfold K in *; lra).
    assert (S1 : sqrt (val (fadd (fmul prPd prPd) (fmul phPd phPd))) <= K - / 200000).
    { apply sqrt_below; [unfold K; lra|]. apply room1 with (r * r + h * h) r; [exact RK|unfold K; lra|exact T1|lra]. }
    destruct (sqrt_d _ F5) as (F6 & V6); [lra|]. destruct sum3 as (F7 & V7 & _). opn. unfold dl in *.
    apply not_true_iff_false. intro C. apply fltb_val in C; try assumption. unfold K in *. lra.
  Qed.

  (** 362-363: the wrist *)
  Let prWd := fsub prPd (fmul (A3 s) (lsin m oy)).
  Let phWd := fsub phPd (fmul (A3 s) (lcos m oy)).
  Lemma wrist_ok : finite prWd = true /\ Rabs (val prWd - wr) <= 2 / 10000000 /\ finite phWd = true /\ Rabs (val phWd - wh) <= 2 / 1000000000000.
  Proof.
    destruct ACC as (AC & _). destruct (AC oy Fo (abs_of _ _ Bo)) as (Fs & Vs & Fc & Vc). fold sn cs in Vs, Vc. pose proof trig. pose proof a3_range. pose proof r_range. pose proof r_pos. pose proof h_range.
    destruct pr_ok as (F1 & P1 & V1). destruct ph_ok as (F2 & V2). opn. unfold dl in *.
    destruct (mul_d (A3 s) (lsin m oy)) as (F3 & V3); [apply LEN|exact Fs|fold a3; apply abs_of; pose proof (prod_b a3 (val (lsin m oy)) 1 2); lra|]. destruct (mul_d (A3 s) (lcos m oy)) as (F4 & V4); [apply LEN|exact Fc|fold a3; apply abs_of; pose proof (prod_b a3 (val (lcos m oy)) 1 2); lra|]. fold a3 in V3, V4.
    opn. unfold dl in *. assert (E3 : - / 1000000000000 <= a3 * val (lsin m oy) - a3 * sn <= / 1000000000000) by (pose proof (prod_b a3 (val (lsin m oy) - sn) 1 (/ 1000000000000)); lra). assert (E4 : - / 1000000000000 <= a3 * val (lcos m oy) - a3 * cs <= / 1000000000000) by (pose proof (prod_b a3 (val (lcos m oy) - cs) 1 (/ 1000000000000)); lra).
    pose proof tool.
    destruct (sub_d prPd _ F1 F3) as (F5 & V5); [apply abs_of; lra|]. destruct (sub_d phPd _ F2 F4) as (F6 & V6); [apply abs_of; lra|]. fold prWd in F5, V5. fold phWd in F6, V6. opn. unfold dl in *.
    split; [exact F5|]. split; [apply abs_of; unfold wr; lra|]. split; [exact F6|]. apply abs_of. unfold wh. lra.
  Qed.

  (** 365: len_2 *)
  Let len_2 := fadd (fmul phWd phWd) (fmul prWd prWd).
  Lemma len_ok : finite len_2 = true /\ Rabs (val len_2 - D * D) <= 5 / 10000000 * D.
  Proof.
    pose proof w_range as (W1 & W2). destruct D_range as (D1 & D2 & _). destruct wrist_ok as (F1 & V1 & F2 & V2). opn.
    destruct (sq_d prWd 4 F1) as (F3 & V3); [apply abs_of; lra|lra|]. destruct (sq_d phWd 4 F2) as (F4 & V4); [apply abs_of; lra|lra|]. opn. unfold dl in *.
    assert (Q1 : - (4 / 10000000 * D + / 20000000000000) <= val prWd * val prWd - wr * wr <= 4 / 10000000 * D + / 20000000000000).
    { pose proof (diff_sq (val prWd) wr D (2 / 10000000) W1 V1). lra. }
    assert (Q2 : - (5 / 1000000000000 * D + / 20000000000000) <= val phWd * val phWd - wh * wh <= 5 / 1000000000000 * D + / 20000000000000).
    { pose proof (diff_sq (val phWd) wh D (2 / 1000000000000) W2 V2). lra. }
    assert (DD : D * D <= 4) by (pose proof (sq_mono D 2); lra). pose proof D_sq as DS. assert (0 <= wr * wr) by apply Rle_0_sqr. assert (0 <= wh * wh) by apply Rle_0_sqr.
    destruct (add_d _ _ F4 F3) as (F5 & V5); [apply abs_of; lra|]. fold len_2 in F5, V5. opn. unfold dl in *. split; [exact F5|]. apply abs_of. rewrite DS. lra.
  Qed.
  Lemma len_pos : 0 < val len_2 /\ / 100000000000 <= val len_2 <= 5.
  Proof. destruct len_ok as (_ & V). destruct D_range as (D1 & D2 & _). opn. assert (/ 100000 * D <= D * D) by (apply Rmult_le_compat_r; lra). assert (D * D <= 4) by (pose proof (sq_mono D 2); lra). lra. Qed.
  Lemma test2 : fltb (fadd (A1 s) (A2 s)) (fsqrt len_2) = false.
  Proof.
    destruct len_ok as (F1 & V1). pose proof len_pos as (L0 & L1). destruct D_range as (D1 & D2 & D3 & _). pose proof a1_range. pose proof a2_range. opn.
    set (K := a1 + a2) in *. assert (S1 : sqrt (val len_2) <= K - / 200000). { apply sqrt_below; [unfold K; lra|]. apply room2 with D; [exact (conj D1 D3)|unfold K; lra|lra]. }
    destruct (sqrt_d _ F1) as (F2 & V2); [lra|]. destruct sum3 as (_ & _ & F3 & V3). opn. unfold dl in *.
    apply not_true_iff_false. intro C. apply fltb_val in C; try assumption. unfold K in *. lra.
  Qed.

  (** 373: ct2 *)
  Let ct2 := fdiv (fsub (fsub len_2 (fmul (A1 s) (A1 s))) (fmul (A2 s) (A2 s))) (fmul (fmul (ofZ 2) (A1 s)) (A2 s)).
  Lemma ct2_ok : finite ct2 = true /\ Rabs (val ct2) <= 1 - / 100000000000.
  Proof.
    pose proof a1_range. pose proof a2_range. destruct len_ok as (F1 & V1). pose proof len_pos as (L0 & L1). destruct D_range as (D1 & D2 & D3 & D4 & D5).
    assert (Fa1 : finite (A1 s) = true) by apply LEN. assert (Fa2 : finite (A2 s) = true) by apply LEN.
    destruct (sq_d (A1 s) 1 Fa1) as (F2 & V2); [fold a1; apply abs_of; lra|lra|]. destruct (sq_d (A2 s) 1 Fa2) as (F3 & V3); [fold a2; apply abs_of; lra|lra|]. fold a1 in V2. fold a2 in V3.
    opn. unfold dl in *. assert (/ 100 <= a1 * a1 <= 1) by (pose proof (two_pos a1 a1 (/ 10) (/ 10)); pose proof (sq_mono a1 1); lra). assert (/ 100 <= a2 * a2 <= 1) by (pose proof (two_pos a2 a2 (/ 10) (/ 10)); pose proof (sq_mono a2 1); lra). assert (B12 : / 100 <= a1 * a2 <= 1) by (pose proof (two_pos a1 a2 (/ 10) (/ 10)); pose proof (prod_b a1 a2 1 1); lra).
    destruct (sub_d len_2 _ F1 F2) as (F4 & V4); [apply abs_of; lra|]. opn. unfold dl in *.
    destruct (sub_d _ _ F4 F3) as (F5 & V5); [apply abs_of; lra|]. opn. unfold dl in *.
    destruct (ofZ_ok 2 ltac:(lia)) as (F6 & V6). destruct (mul_d _ _ F6 Fa1) as (F7 & V7); [rewrite V6; fold a1; apply abs_of; lra|]. rewrite V6 in V7. fold a1 in V7. opn. unfold dl in *.
    destruct (mul_d _ _ F7 Fa2) as (F8 & V8); [fold a2; apply abs_of; pose proof (prod_b a2 (val (fmul (ofZ 2) (A1 s))) 1 3); lra|]. fold a2 in V8. opn. unfold dl in *.
    set (N := val (fsub (fsub len_2 (fmul (A1 s) (A1 s))) (fmul (A2 s) (A2 s)))) in *. set (E := val (fmul (fmul (ofZ 2) (A1 s)) (A2 s))) in *.
    assert (EE : - (/ 10000000000000) <= E - 2 * (a1 * a2) <= / 10000000000000) by (pose proof (prod_b a2 (val (fmul (ofZ 2) (A1 s)) - 2 * a1) 1 (/ 100000000000000)); lra).
    assert (U1 : D * D - (a1 - a2) * (a1 - a2) >= / 100000 * D) by (apply gap1; assumption).
    assert (U2 : (a1 + a2) * (a1 + a2) - D * D >= / 100000 * D) by (apply gap2; lra).
    assert (NU : N <= E - / 20000000000) by lra. assert (NL : - E + / 20000000000 <= N) by lra.
    assert (E0 : 0 < E) by lra. assert (E3 : E <= 3) by lra.
    assert (Q : - (1 - / 60000000001) <= N / E <= 1 - / 60000000001).
    { split; apply Rmult_le_reg_r with E; try assumption; unfold Rdiv; rewrite Rmult_assoc, Rinv_l, Rmult_1_r by lra; lra. }
    destruct (fdiv_ok _ (fmul (fmul (ofZ 2) (A1 s)) (A2 s)) F5) as (F9 & V9). { fold E. lra. } { fold N E. pose proof huge_big. apply abs_of. lra. }
    fold ct2 in F9, V9. fold N E in V9. split; [exact F9|]. rewrite V9. pose proof (rnd_d (N / E) ltac:(apply abs_of; lra)) as R. opn. unfold dl in R. apply abs_of. lra.
  Qed.
  (** 374: st2 *)
  Let st2 := fsqrt (fsub (ofZ 1) (fmul ct2 ct2)).
  Lemma st2_ok : finite st2 = true /\ Rabs (val st2) <= 2.
  Proof.
    destruct ct2_ok as (F1 & V1). opn. destruct (sq_d ct2 1 F1) as (F2 & V2); [apply abs_of; lra|lra|]. pose proof (sq_nonneg ct2 F1 ltac:(apply abs_of; lra)) as P2. opn. unfold dl in *.
    destruct (ofZ_ok 1 ltac:(lia)) as (F3 & V3). assert (Q : val ct2 * val ct2 <= 1 - / 100000000000) by (pose proof (sq_mono (val ct2) (1 - / 100000000000)); lra).
    destruct (fsub_ok (ofZ 1) (fmul ct2 ct2) F3 F2) as (F4 & V4). { rewrite V3. pose proof huge_big. apply abs_of. lra. } rewrite V3 in V4.
    assert (P4 : 0 <= val (fsub (ofZ 1) (fmul ct2 ct2))) by (rewrite V4; apply rnd_pos; lra).
    pose proof (rnd_d (1 - val (fmul ct2 ct2)) ltac:(apply abs_of; lra)) as R. rewrite <- V4 in R. opn. unfold dl in R.
    destruct (sqrt_d _ F4) as (F5 & V5); [lra|]. fold st2 in F5, V5. split; [exact F5|]. pose proof (sqrt_below (val (fsub (ofZ 1) (fmul ct2 ct2))) 1.5 ltac:(lra) ltac:(lra)) as S1. pose proof (sqrt_pos (val (fsub (ofZ 1) (fmul ct2 ct2)))). opn. unfold dl in V5. apply abs_of. lra.
  Qed.

  (** 380-389 *)
  Let a := fadd (A1 s) (fmul (A2 s) ct2).
  Let b := fmul (A2 s) st2.
  Lemma ab_ok : finite a = true /\ Rabs (val a) <= 3 /\ finite b = true /\ Rabs (val b) <= 3.
  Proof.
    destruct ct2_ok as (F1 & V1). destruct st2_ok as (F2 & V2). pose proof a1_range. pose proof a2_range. opn.
    destruct (mul_d (A2 s) ct2) as (F3 & V3); [apply LEN|exact F1|fold a2; apply abs_of; pose proof (prod_b a2 (val ct2) 1 1); lra|]. destruct (mul_d (A2 s) st2) as (F4 & V4); [apply LEN|exact F2|fold a2; apply abs_of; pose proof (prod_b a2 (val st2) 1 2); lra|]. fold a2 in V3, V4. fold b in F4, V4.
    opn. unfold dl in *. assert (-1 <= a2 * val ct2 <= 1) by (pose proof (prod_b a2 (val ct2) 1 1); lra). assert (-2 <= a2 * val st2 <= 2) by (pose proof (prod_b a2 (val st2) 1 2); lra).
    destruct (add_d (A1 s) _ ltac:(apply LEN) F3) as (F5 & V5); [fold a1; apply abs_of; lra|]. fold a1 in V5. fold a in F5, V5. opn. unfold dl in *. repeat split; try assumption; apply abs_of; lra.
  Qed.
  Lemma quot_ok : forall n, finite n = true -> Rabs (val n) <= 90 -> finite (fdiv n len_2) = true.
  Proof.
    intros n Fn Bn. pose proof len_pos as (L0 & L1). apply fdiv_ok; [exact Fn|lra|]. pose proof huge_big. opn. apply abs_of.
    split; apply Rmult_le_reg_r with (val len_2); try lra; unfold Rdiv; rewrite Rmult_assoc, Rinv_l by lra; nra.
  Qed.
  Lemma prods : forall c w, finite c = true -> Rabs (val c) <= 3 -> finite w = true -> Rabs (val w) <= 3 -> finite (fmul c w) = true /\ Rabs (val (fmul c w)) <= 10.
  Proof. intros c w Fc Bc Fw Bw. opn. destruct (mul_d c w Fc Fw) as (F & V); [apply abs_of; nra|]. opn. unfold dl in V. split; [exact F|]. apply abs_of. nra. Qed.
  Lemma combos : forall p q, finite p = true -> Rabs (val p) <= 10 -> finite q = true -> Rabs (val q) <= 10 ->
    finite (fdiv (fadd p q) len_2) = true /\ finite (fdiv (fsub p q) len_2) = true.
  Proof.
    intros p q Fp Bp Fq Bq. opn. destruct (add_d p q Fp Fq) as (F1 & V1); [apply abs_of; lra|]. destruct (sub_d p q Fp Fq) as (F2 & V2); [apply abs_of; lra|]. opn. unfold dl in *.
    split; apply quot_ok; try assumption; apply abs_of; lra.
  Qed.
  Lemma turns : forall t1, finite t1 = true -> Rabs (val t1) <= 4 -> forall t2, finite t2 = true -> Rabs (val t2) <= 4 ->
    finite (fsub (fsub oy t1) t2) = true /\ finite (fadd (fsub oy t1) t2) = true.
  Proof.
    intros u1 F1 B1 u2 F2 B2. opn. destruct (sub_d oy u1 Fo F1) as (F3 & V3); [apply abs_of; lra|]. opn. unfold dl in V3. split.
    - apply sub_d; try assumption. apply abs_of. lra.
    - apply add_d; try assumption. apply abs_of. lra.
  Qed.

  Lemma margin_solved : exists g, closed_form m s x y z oy = Some g /\ all_numbers g.
  Proof.
    unfold closed_form. fold prPd phPd. rewrite test1. fold prWd phWd. fold len_2. rewrite test2. fold ct2. fold st2. fold a b. eexists. split; [reflexivity|].
    destruct ACC as (_ & AT). destruct wrist_ok as (F1 & V1 & F2 & V2). pose proof w_range as (W1 & W2). destruct D_range as (D1 & D2 & _). destruct ab_ok as (Fa & Ba & Fb & Bb). destruct ct2_ok as (F3 & _). destruct st2_ok as (F4 & _). opn.
    assert (B1 : Rabs (val prWd) <= 3) by (apply abs_of; lra). assert (B2 : Rabs (val phWd) <= 3) by (apply abs_of; lra).
    destruct (prods a prWd Fa ltac:(apply abs_of; lra) F1 B1) as (P1 & Q1). destruct (prods a phWd Fa ltac:(apply abs_of; lra) F2 B2) as (P2 & Q2).
    destruct (prods b prWd Fb ltac:(apply abs_of; lra) F1 B1) as (P3 & Q3). destruct (prods b phWd Fb ltac:(apply abs_of; lra) F2 B2) as (P4 & Q4).
    destruct (combos _ _ P1 Q1 P4 Q4) as (C1 & C2). destruct (combos _ _ P2 Q2 P3 Q3) as (C3 & C4).
    destruct (AT y x Fy Fx) as (T0 & _). destruct (AT _ _ F4 F3) as (T2 & U2). destruct (AT _ _ C2 C3) as (T1u & U1u). destruct (AT _ _ C1 C4) as (T1d & U1d).
    unfold all_numbers. cbn [oz t1u t1d t2 t3u t3d]. destruct (turns _ T1u U1u _ T2 U2) as (X1 & _). destruct (turns _ T1d U1d _ T2 U2) as (_ & X2). repeat split; assumption.
  Qed.
End Margin.
