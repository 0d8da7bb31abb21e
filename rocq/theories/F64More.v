(** Doubles that may be infinite or NaN: order, differences and sums. *)
From Coq Require Import List ZArith Reals Lia Lra Bool.
From Flocq Require Import Core IEEE754.BinarySingleNaN.
From Verif Require Import F64 F64Facts.
Import ListNotations.
Open Scope R_scope.

(** ** the order of the doubles that are not NaN is that of some real numbers *)
Definition key (x : f64) : R :=
  match x with B754_infinity false => bpow radix2 1024 | B754_infinity true => - bpow radix2 1024 | _ => val x end.
Lemma key_finite : forall x, finite x = true -> key x = val x /\ - bpow radix2 1024 < key x < bpow radix2 1024.
Proof.
  intros x F. assert (E : key x = val x) by (destruct x as [?|?| |? ? ? ?]; try discriminate F; reflexivity). split; [exact E|]. rewrite E.
  pose proof (finite_bound x F) as B. apply Rabs_def2 in B. lra.
Qed.
Lemma key_lt : forall x y, isnan x = false -> isnan y = false -> (fltb x y = true <-> key x < key y).
Proof.
  intros x y Nx Ny. pose proof (bpow_gt_0 radix2 1024) as P.
  destruct (finite x) eqn:Fx, (finite y) eqn:Fy.
  - destruct (key_finite x Fx) as (-> & _). destruct (key_finite y Fy) as (-> & _). now apply fltb_val.
  - destruct (key_finite x Fx) as (_ & B). destruct y as [?|[]| |? ? ? ?]; try discriminate Fy; try discriminate Ny; cbn [key];
      destruct x as [?|?| |[] ? ? ?]; try discriminate Fx; (split; [intro H; try discriminate H; lra|intro H; try reflexivity; lra]).
  - destruct (key_finite y Fy) as (_ & B). destruct x as [?|[]| |? ? ? ?]; try discriminate Fx; try discriminate Nx; cbn [key];
      destruct y as [?|?| |[] ? ? ?]; try discriminate Fy; (split; [intro H; try discriminate H; lra|intro H; try reflexivity; lra]).
  - destruct x as [?|[]| |? ? ? ?]; try discriminate Fx; try discriminate Nx; destruct y as [?|[]| |? ? ? ?]; try discriminate Fy; try discriminate Ny; cbn [key];
      (split; [intro H; try discriminate H; lra|intro H; try reflexivity; lra]).
Qed.
Lemma key_le : forall x y, isnan x = false -> isnan y = false -> fltb x y = false -> key y <= key x.
Proof. intros x y A B H. apply Rnot_lt_le. intro C. apply key_lt in C; try assumption. congruence. Qed.
Lemma key_not_lt : forall x y, isnan x = false -> isnan y = false -> key y <= key x -> fltb x y = false.
Proof. intros x y A B H. apply not_true_iff_false. intro C. apply key_lt in C; try assumption. lra. Qed.

(** ** differences with a finite number, and sums of absolute values *)
Lemma of_sf : forall x y : f64, B2SF x = B2SF y -> x = y.
Proof. intros. now apply B2SF_inj. Qed.
Lemma fsub_nan : forall g v, finite v = true -> isnan (fsub g v) = isnan g.
Proof.
  intros g v F. destruct (finite g) eqn:G.
  - rewrite (finite_not_nan g G). pose proof (Bminus_correct 53 1024 p53 p53_1024 mode_NE g v G F) as C. fold (fsub g v) in C.
    destruct (Rlt_bool _ _).
    + destruct C as (_ & C & _). now apply finite_not_nan.
    + destruct C as (C & _). unfold binary_overflow in C. cbn in C. destruct (fsub g v) as [?|?| |? ? ? ?]; try discriminate C; reflexivity.
  - destruct g as [?|?| |? ? ? ?]; try discriminate G; destruct v as [?|?| |? ? ? ?]; try discriminate F; reflexivity.
Qed.
Lemma fabs_nan : forall x, isnan (fabs x) = isnan x.
Proof. now intros [?|?| |? ? ? ?]. Qed.
Lemma fabs_sign : forall x, isnan x = false -> Bsign (fabs x) = false.
Proof. now intros [?|?| |? ? ? ?]. Qed.

(** a number that is not negative, or infinity *)
Definition plus (x : f64) : Prop := isnan x = false /\ Bsign x = false.
Lemma plus_key : forall x, plus x -> 0 <= key x.
Proof.
  intros [?|[]| |[] ? ? ?] (N & Sx); try discriminate; cbn [key]; try (pose proof (bpow_gt_0 radix2 1024); lra).
  - unfold val. cbn. lra.
  - unfold val, B2R. apply F2R_ge_0. cbn. lia.
Qed.
Lemma fadd_plus : forall x y, plus x -> plus y -> plus (fadd x y).
Proof.
  intros x y (Nx & Sx) (Ny & Sy). destruct (finite x) eqn:Fx, (finite y) eqn:Fy.
  - pose proof (Bplus_correct 53 1024 p53 p53_1024 mode_NE x y Fx Fy) as C. fold (fadd x y) in C. destruct (Rlt_bool _ _).
    + destruct C as (_ & F & Sg). split; [now apply finite_not_nan|]. rewrite Sg, Sx, Sy.
      pose proof (plus_key x (conj Nx Sx)) as Px. pose proof (plus_key y (conj Ny Sy)) as Py. destruct (key_finite x Fx) as (Ex & _). destruct (key_finite y Fy) as (Ey & _). rewrite Ex in Px. rewrite Ey in Py.
      unfold val in Px, Py. destruct (Rcompare_spec (B2R x + B2R y) 0); try reflexivity. lra.
    + destruct C as (C & _). rewrite Sx in C. cbn in C. destruct (fadd x y) as [?|?| |? ? ? ?]; try discriminate C. injection C as ->. split; reflexivity.
  - destruct y as [?|[]| |? ? ? ?]; try discriminate Fy; try discriminate Ny; try discriminate Sy. destruct x as [?|[]| |? ? ? ?]; try discriminate Fx; split; reflexivity.
  - destruct x as [?|[]| |? ? ? ?]; try discriminate Fx; try discriminate Nx; try discriminate Sx. destruct y as [?|[]| |? ? ? ?]; try discriminate Fy; split; reflexivity.
  - destruct x as [?|[]| |? ? ? ?]; try discriminate Fx; try discriminate Nx; try discriminate Sx. destruct y as [?|[]| |? ? ? ?]; try discriminate Fy; try discriminate Ny; try discriminate Sy. split; reflexivity.
Qed.
Lemma sum_nan_l : forall ds, fold_left fadd ds fnan = fnan.
Proof. induction ds as [|d ds IH]; [reflexivity|]. cbn [fold_left]. now rewrite fadd_nan_l. Qed.
Lemma total_nan : forall ds s, plus s -> Forall (fun d => isnan d = true \/ plus d) ds ->
  isnan (fold_left fadd ds s) = existsb isnan ds /\ (existsb isnan ds = false -> plus (fold_left fadd ds s)).
Proof.
  induction ds as [|d ds IH]; intros s P D; [cbn; split; [apply P|auto]|]. cbn [fold_left existsb]. inversion D as [|? ? [N|Q] D']; subst.
  - rewrite N. apply isnan_eq in N. subst d. rewrite fadd_nan_r, sum_nan_l. cbn. split; [reflexivity|discriminate].
  - destruct Q as (Q1 & Q2). rewrite Q1. cbn [orb]. apply IH; [apply fadd_plus; [exact P|split; assumption]|exact D'].
Qed.
Lemma zero_plus : plus fzero. Proof. split; reflexivity. Qed.
