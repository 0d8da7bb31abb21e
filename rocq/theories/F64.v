(** C++'s [double]: IEEE 754 binary64, rounding to nearest with ties to even.

    The library Flocq gives the numbers and the operations; NaN has no payload here. What is
    assumed of the compiler and the machine is that the operations of the code are these, each
    rounded once (no extended precision, no fused multiply and add). *)
From Coq Require Import ZArith Reals Lia.
From Flocq Require Import Core IEEE754.BinarySingleNaN.

Definition f64 := binary_float 53 1024.
Lemma p53 : Prec_gt_0 53. Proof. reflexivity. Qed.
Lemma p53_1024 : Prec_lt_emax 53 1024. Proof. reflexivity. Qed.

(** +, -, *, / and std::sqrt on doubles *)
Definition fadd : f64 -> f64 -> f64 := Bplus (prec_gt_0_ := p53) (prec_lt_emax_ := p53_1024) mode_NE.
Definition fsub : f64 -> f64 -> f64 := Bminus (prec_gt_0_ := p53) (prec_lt_emax_ := p53_1024) mode_NE.
Definition fmul : f64 -> f64 -> f64 := Bmult (prec_gt_0_ := p53) (prec_lt_emax_ := p53_1024) mode_NE.
Definition fdiv : f64 -> f64 -> f64 := Bdiv (prec_gt_0_ := p53) (prec_lt_emax_ := p53_1024) mode_NE.
Definition fsqrt : f64 -> f64 := Bsqrt (prec_gt_0_ := p53) (prec_lt_emax_ := p53_1024) mode_NE.
Definition fabs : f64 -> f64 := @Babs 53 1024.
Definition fneg : f64 -> f64 := @Bopp 53 1024.
(** <, <=, == on doubles: false when one of them is NaN *)
Definition fltb : f64 -> f64 -> bool := @Bltb 53 1024.
Definition fleb : f64 -> f64 -> bool := @Bleb 53 1024.
Definition feqb : f64 -> f64 -> bool := @Beqb 53 1024.

Definition fzero : f64 := B754_zero false.
Definition fnan : f64 := B754_nan.
(** the double nearest to an integer *)
Definition ofZ (m : Z) : f64 := binary_normalize 53 1024 p53 p53_1024 mode_NE m 0 false.
(** the double nearest to the decimal number m / 10^k, when |m| <= 2^53 and k <= 22 (both
    operands are then exact, and the quotient is rounded once) *)
Definition lit (m : Z) (k : Z) : f64 := fdiv (ofZ m) (ofZ (10 ^ k)).

(** the real number that a finite double stands for, and whether a double is finite, or NaN *)
Definition val : f64 -> R := @B2R 53 1024.
Definition finite : f64 -> bool := @is_finite 53 1024.
Definition isnan : f64 -> bool := @is_nan 53 1024.
