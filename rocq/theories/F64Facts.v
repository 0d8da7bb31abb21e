(** Facts about doubles. *)
From Coq Require Import ZArith Reals Lia Lra Bool.
From Flocq Require Import Core IEEE754.BinarySingleNaN.
Require Import Flocq.Prop.Relative.
From Verif Require Import F64.
Open Scope R_scope.

Notation fx := (FLT_exp (-1074) 53).
Definition rnd (x : R) : R := round radix2 fx ZnearestE x.
Definition u : R := / 9007199254740992.      (* 2^-53 *)
Definition tiny : R := bpow radix2 (-1075).
Definition huge : R := bpow radix2 1000.

#[global] Instance fx_valid : Valid_exp fx. Proof. apply FLT_exp_valid. reflexivity. Qed.

Lemma rnd_fexp : forall x, round radix2 (SpecFloat.fexp 53 1024) (round_mode mode_NE) x = rnd x.
Proof. reflexivity. Qed.

Lemma rnd_le : forall x y, x <= y -> rnd x <= rnd y.
Proof. intros. apply round_le; [apply fx_valid|apply valid_rnd_N|assumption]. Qed.

Lemma val_format : forall x, generic_format radix2 fx (val x).
Proof. intro x. exact (generic_format_B2R 53 1024 x). Qed.
Lemma rnd_val : forall x, rnd (val x) = val x.
Proof. intro x. apply round_generic; [apply valid_rnd_N|apply val_format]. Qed.
Lemma rnd_0 : rnd 0 = 0.
Proof. apply round_0. apply valid_rnd_N. Qed.
Lemma rnd_pos : forall x, 0 <= x -> 0 <= rnd x.
Proof. intros x P. rewrite <- rnd_0. now apply rnd_le. Qed.
Lemma rnd_opp : forall x, rnd (- x) = - rnd x.
Proof. intro x. unfold rnd. apply round_NE_opp. Qed.
Lemma rnd_abs : forall x, Rabs (rnd x) = rnd (Rabs x).
Proof.
  intro x. unfold Rabs at 2. destruct (Rcase_abs x) as [N|N].
  - rewrite rnd_opp. assert (rnd x <= 0) by (rewrite <- rnd_0; apply rnd_le; lra). unfold Rabs. destruct (Rcase_abs (rnd x)); lra.
  - assert (0 <= rnd x) by (apply rnd_pos; lra). unfold Rabs. destruct (Rcase_abs (rnd x)); lra.
Qed.
Lemma bpow_format : forall e, (-1074 <= e)%Z -> generic_format radix2 fx (bpow radix2 e).
Proof. intros e H. apply generic_format_bpow. unfold FLT_exp. lia. Qed.
Lemma rnd_bpow : forall e, (-1074 <= e)%Z -> rnd (bpow radix2 e) = bpow radix2 e.
Proof. intros e H. apply round_generic; [apply valid_rnd_N|now apply bpow_format]. Qed.

Lemma u_bpow : /2 * bpow radix2 (-53 + 1) = u.
Proof. unfold u. change (-53 + 1)%Z with (-52)%Z. unfold bpow. change (Z.pow_pos radix2 52) with 4503599627370496%Z. lra. Qed.
Lemma tiny_pos : 0 < tiny. Proof. apply bpow_gt_0. Qed.
Lemma u_pos : 0 < u. Proof. unfold u. lra. Qed.
Lemma huge_pos : 0 < huge. Proof. apply bpow_gt_0. Qed.

(** relative error, when the result is not too small *)
Lemma rnd_rel : forall x, bpow radix2 (-1022) <= Rabs x -> Rabs (rnd x - x) <= u * Rabs x.
Proof.
  intros x H. rewrite <- u_bpow. apply (relative_error_N_FLT radix2 (-1074) 53); [reflexivity|exact H].
Qed.
Lemma rnd_err : forall x, Rabs (rnd x - x) <= u * Rabs x + tiny.
Proof.
  intro x. pose proof tiny_pos. pose proof u_pos. pose proof (Rabs_pos x). destruct (Rle_or_lt (bpow radix2 (-1022)) (Rabs x)) as [B|B].
  - pose proof (rnd_rel x B). lra.
  - assert (E : Rabs (rnd x - x) <= / 2 * ulp radix2 fx x) by (apply error_le_half_ulp; apply fx_valid).
    assert (U : ulp radix2 fx x = bpow radix2 (-1074)).
    { apply ulp_FLT_small; [reflexivity|]. apply Rlt_trans with (1 := B), bpow_lt; lia. }
    rewrite U in E. assert (T : / 2 * bpow radix2 (-1074) = tiny). { unfold tiny. change (-1074)%Z with (-1075 + 1)%Z. rewrite bpow_plus. change (bpow radix2 1) with 2. lra. }
    rewrite T in E. nra.
Qed.

Lemma finite_bound : forall x, finite x = true -> Rabs (val x) < bpow radix2 1024.
Proof. intros x _. apply abs_B2R_lt_emax. Qed.

Lemma no_overflow : forall x, Rabs x <= huge -> Rlt_bool (Rabs (round radix2 (SpecFloat.fexp 53 1024) (round_mode mode_NE) x)) (bpow radix2 1024) = true.
Proof.
  intros x H. apply Rlt_bool_true. rewrite rnd_fexp, rnd_abs. apply Rle_lt_trans with huge.
  - unfold huge. rewrite <- (rnd_bpow 1000) by lia. apply rnd_le. exact H.
  - apply bpow_lt. lia.
Qed.

Lemma fadd_ok : forall x y, finite x = true -> finite y = true -> Rabs (val x + val y) <= huge ->
  finite (fadd x y) = true /\ val (fadd x y) = rnd (val x + val y).
Proof.
  intros x y Fx Fy B. pose proof (Bplus_correct 53 1024 p53 p53_1024 mode_NE x y Fx Fy) as H.
  rewrite (no_overflow (B2R x + B2R y) B) in H. destruct H as (V & F & _). split; [exact F|exact V].
Qed.
Lemma fsub_ok : forall x y, finite x = true -> finite y = true -> Rabs (val x - val y) <= huge ->
  finite (fsub x y) = true /\ val (fsub x y) = rnd (val x - val y).
Proof.
  intros x y Fx Fy B. pose proof (Bminus_correct 53 1024 p53 p53_1024 mode_NE x y Fx Fy) as H.
  rewrite (no_overflow (B2R x - B2R y) B) in H. destruct H as (V & F & _). split; [exact F|exact V].
Qed.
Lemma fmul_ok : forall x y, finite x = true -> finite y = true -> Rabs (val x * val y) <= huge ->
  finite (fmul x y) = true /\ val (fmul x y) = rnd (val x * val y).
Proof.
  intros x y Fx Fy B. pose proof (Bmult_correct 53 1024 p53 p53_1024 mode_NE x y) as H.
  rewrite (no_overflow (B2R x * B2R y) B) in H. destruct H as (V & F & _). split; [|exact V].
  change (is_finite (fmul x y) = true). unfold fmul. rewrite F. unfold finite in Fx, Fy. now rewrite Fx, Fy.
Qed.
Lemma fdiv_ok : forall x y, finite x = true -> val y <> 0 -> Rabs (val x / val y) <= huge ->
  finite (fdiv x y) = true /\ val (fdiv x y) = rnd (val x / val y).
Proof.
  intros x y Fx Ny B. pose proof (Bdiv_correct 53 1024 p53 p53_1024 mode_NE x y Ny) as H.
  rewrite (no_overflow (B2R x / B2R y) B) in H. destruct H as (V & F & _). split; [|exact V].
  change (is_finite (fdiv x y) = true). unfold fdiv. now rewrite F.
Qed.
Lemma fsqrt_ok : forall x, finite x = true -> 0 <= val x -> finite (fsqrt x) = true /\ val (fsqrt x) = rnd (sqrt (val x)).
Proof.
  intros x Fx P. destruct (Bsqrt_correct 53 1024 p53 p53_1024 mode_NE x) as (V & F & _). split; [|exact V].
  change (is_finite (fsqrt x) = true). unfold fsqrt. rewrite F. destruct x as [s|s| |[] m e B]; try reflexivity; try discriminate Fx.
  exfalso. unfold val, B2R in P. assert (F2R (Float radix2 (Z.neg m) e) < 0) by now apply F2R_lt_0. cbn [cond_Zopp Z.opp] in P. lra.
Qed.

Lemma fabs_val : forall x, val (fabs x) = Rabs (val x).
Proof. intro x. apply B2R_Babs. Qed.
Lemma fabs_finite : forall x, finite (fabs x) = finite x.
Proof. intro x. apply is_finite_Babs. Qed.
Lemma fneg_val : forall x, val (fneg x) = - val x.
Proof. intro x. apply B2R_Bopp. Qed.
Lemma fneg_finite : forall x, finite (fneg x) = finite x.
Proof. intro x. apply is_finite_Bopp. Qed.

Lemma fltb_val : forall x y, finite x = true -> finite y = true -> (fltb x y = true <-> val x < val y).
Proof. intros x y Fx Fy. unfold fltb. rewrite (Bltb_correct 53 1024 x y Fx Fy). unfold val. destruct (Rlt_bool_spec (B2R x) (B2R y)); split; intro; try easy; lra. Qed.
Lemma fleb_val : forall x y, finite x = true -> finite y = true -> (fleb x y = true <-> val x <= val y).
Proof. intros x y Fx Fy. unfold fleb. rewrite (Bleb_correct 53 1024 x y Fx Fy). unfold val. destruct (Rle_bool_spec (B2R x) (B2R y)); split; intro; try easy; lra. Qed.
Lemma feqb_val : forall x y, finite x = true -> finite y = true -> (feqb x y = true <-> val x = val y).
Proof. intros x y Fx Fy. unfold feqb. rewrite (Beqb_correct 53 1024 x y Fx Fy). unfold val. destruct (Req_bool_spec (B2R x) (B2R y)); split; intro; try easy; lra. Qed.
Lemma fltb_false : forall x y, finite x = true -> finite y = true -> fltb x y = false -> val y <= val x.
Proof. intros x y Fx Fy H. destruct (Rle_or_lt (val y) (val x)); [assumption|]. apply fltb_val in H0; congruence. Qed.
Lemma fleb_false : forall x y, finite x = true -> finite y = true -> fleb x y = false -> val y < val x.
Proof. intros x y Fx Fy H. destruct (Rlt_or_le (val y) (val x)); [assumption|]. apply fleb_val in H0; congruence. Qed.

(** a double that is neither NaN nor finite is an infinity, above or below every finite one *)
Lemma outer : forall x lo hi, isnan x = false -> finite lo = true -> finite hi = true -> fltb x lo = false -> fltb hi x = false -> finite x = true.
Proof.
  intros x lo hi N Fl Fh A B. destruct x as [s|[]| |s m e P]; try reflexivity; try discriminate N; exfalso.
  - destruct lo as [?|?| |[] ? ? ?]; try discriminate Fl; discriminate A.
  - destruct hi as [?|?| |[] ? ? ?]; try discriminate Fh; discriminate B.
Qed.
Lemma between_finite : forall x lo hi, finite lo = true -> finite hi = true -> fleb lo x = true -> fleb x hi = true -> finite x = true.
Proof.
  intros x lo hi Fl Fh A B. destruct x as [s|[]| |s m e P]; try reflexivity; exfalso.
  - destruct lo as [?|?| |[] ? ? ?]; try discriminate Fl; discriminate A.
  - destruct hi as [?|?| |[] ? ? ?]; try discriminate Fh; discriminate B.
  - destruct lo as [?|?| |[] ? ? ?]; try discriminate Fl; discriminate A.
Qed.
Lemma finite_not_nan : forall x, finite x = true -> isnan x = false.
Proof. intros [?|?| |? ? ? ?]; easy. Qed.

(** NaN *)
Lemma isnan_eq : forall x, isnan x = true -> x = fnan.
Proof. intros [?|?| |? ? ? ?]; easy. Qed.
Lemma fltb_nan_l : forall x, fltb fnan x = false. Proof. intros [?|?| |[] ? ? ?]; reflexivity. Qed.
Lemma fltb_nan_r : forall x, fltb x fnan = false. Proof. intros [?|[]| |[] ? ? ?]; reflexivity. Qed.
Lemma fleb_nan_l : forall x, fleb fnan x = false. Proof. intros [?|?| |[] ? ? ?]; reflexivity. Qed.
Lemma fleb_nan_r : forall x, fleb x fnan = false. Proof. intros [?|[]| |[] ? ? ?]; reflexivity. Qed.
Lemma fadd_nan_l : forall x, fadd fnan x = fnan. Proof. intros [?|?| |? ? ? ?]; reflexivity. Qed.
Lemma fadd_nan_r : forall x, fadd x fnan = fnan. Proof. intros [?|?| |? ? ? ?]; reflexivity. Qed.
Lemma fmul_nan_r : forall x, fmul x fnan = fnan. Proof. intros [?|?| |? ? ? ?]; reflexivity. Qed.
