(** Witnesses and examples for the ASIBOT solver on doubles. *)
From Coq Require Import List ZArith Reals Lia Lra Bool.
From Flocq Require Import Core IEEE754.BinarySingleNaN.
From Verif Require Import F64 F64Facts RoundedFacts AsibotF64 AsibotF64Spec AsibotF64Facts AsibotF64Facts2.
Import ListNotations.
Open Scope R_scope.

Ltac literal x := let E := fresh in let b := eval vm_compute in (B2SF x) in assert (E : B2SF x = b) by (vm_compute; reflexivity); unfold val; rewrite <- SF2R_B2SF, E; unfold SF2R, F2R; cbn; lra.

(** ** a C library that is right: each result is the double nearest to it *)
Definition nearest (x : R) : f64 :=
  binary_normalize 53 1024 p53 p53_1024 mode_NE (ZnearestE (scaled_mantissa radix2 (SpecFloat.fexp 53 1024) x)) (cexp radix2 (SpecFloat.fexp 53 1024) x) false.
Lemma nearest_ok : forall x, Rabs x <= huge -> finite (nearest x) = true /\ val (nearest x) = rnd x.
Proof.
  intros x H. pose proof (binary_normalize_correct 53 1024 p53 p53_1024 mode_NE (ZnearestE (scaled_mantissa radix2 (SpecFloat.fexp 53 1024) x)) (cexp radix2 (SpecFloat.fexp 53 1024) x) false) as C. cbv zeta in C.
  change (F2R (Float radix2 (ZnearestE (scaled_mantissa radix2 (SpecFloat.fexp 53 1024) x)) (cexp radix2 (SpecFloat.fexp 53 1024) x))) with (rnd x) in C.
  assert (F : rnd (rnd x) = rnd x). { apply round_generic; [apply valid_rnd_N|]. apply generic_format_round; [exact (FLT_exp_valid (-1074) 53 (prec_gt_0_ := p53))|apply valid_rnd_N]. }
  change (round radix2 (SpecFloat.fexp 53 1024) (round_mode mode_NE) (rnd x)) with (rnd (rnd x)) in C. rewrite F in C.
  pose proof (no_overflow x H) as O. change (round radix2 (SpecFloat.fexp 53 1024) (round_mode mode_NE) x) with (rnd x) in O. rewrite O in C. destruct C as (C1 & C2 & _). split; [exact C2|exact C1].
Qed.
Definition ideal : libm := Libm (fun t => nearest (sin (val t))) (fun t => nearest (cos (val t))) (fun a b => nearest (atan (val a / val b))).
Lemma near1 : forall x, -1 <= x <= 1 -> finite (nearest x) = true /\ Rabs (val (nearest x) - x) <= / 1000000000000.
Proof. intros x H. destruct (nearest_ok x) as (F & V). { pose proof huge_big. apply abs_of. lra. } split; [exact F|]. rewrite V. pose proof (rnd_d x ltac:(apply abs_of; lra)). unfold dl in *. lra. Qed.
Lemma ideal_accurate : accurate ideal.
Proof.
  split.
  - intros t Ft _. cbn [lsin lcos ideal]. destruct (near1 (sin (val t)) (SIN_bound _)) as (A & B). destruct (near1 (cos (val t)) (COS_bound _)) as (C & D). auto.
  - intros a b _ _. cbn [latan2 ideal]. pose proof (atan_bound (val a / val b)) as B. pose proof PI_4. pose proof huge_big. destruct (nearest_ok (atan (val a / val b))) as (F & V). { apply abs_of. lra. }
    split; [exact F|]. rewrite V. pose proof (rnd_d (atan (val a / val b)) ltac:(apply abs_of; lra)). opn. unfold dl in *. apply abs_of. lra.
Qed.
Lemma ideal_zero : exact_at_zero ideal.
Proof.
  unfold exact_at_zero. cbn [lsin lcos ideal]. change (val fzero) with 0. rewrite sin_0, cos_0. split.
  - unfold nearest. replace (scaled_mantissa radix2 (SpecFloat.fexp 53 1024) 0) with 0 by (unfold scaled_mantissa; ring). replace (ZnearestE 0) with 0%Z by (change 0 with (IZR 0); now rewrite Zrnd_IZR by apply valid_rnd_N). reflexivity.
  - destruct (nearest_ok 1) as (F & V). { pose proof huge_big. apply abs_of. lra. } destruct (ofZ_ok 1 ltac:(lia)) as (F1 & V1).
    assert (R1 : rnd 1 = 1). { rewrite <- V1. apply rnd_val. } rewrite R1 in V.
    apply B2R_inj. + destruct (nearest 1); try discriminate F; cbn in V; try lra; reflexivity. + reflexivity. + change (val (nearest 1) = val (ofZ 1)). now rewrite V, V1.
Qed.

(** ** a target that the arm can reach, and is refused: links of 0.3, 0.3, 0.4 and 0.2 m, the tool
    upwards, the arm stretched out *)
Definition small : links := Links (lit 3 1) (lit 3 1) (lit 4 1) (lit 2 1).
Definition far_x : f64 := lit 346 3.
Definition far_z : f64 := lit 1108509654812477 15.
Lemma small_lengths : lengths small.
Proof.
  unfold lengths, small. cbn [A0 A1 A2 A3]. assert (2 / 10 <= val (lit 3 1) <= 4 / 10) by literal (lit 3 1). assert (3 / 10 <= val (lit 4 1) <= 5 / 10) by literal (lit 4 1). assert (1 / 10 <= val (lit 2 1) <= 3 / 10) by literal (lit 2 1).
  repeat split; try reflexivity; lra.
Qed.
Lemma upwards : forall s x z, 0 <= val x -> wrist_distance s (val x) (val fzero) (val z) (val fzero) = sqrt (val x * val x + (val z - val (A0 s) - val (A3 s)) * (val z - val (A0 s) - val (A3 s))).
Proof.
  intros s x z P. unfold wrist_distance. change (val fzero) with 0. rewrite sin_0, cos_0. replace (val x * val x + 0 * 0) with (val x * val x) by ring. rewrite (sqrt_square _ P). f_equal. ring.
Qed.
Lemma far_reachable : reachable small 0 (wrist_distance small (val far_x) (val fzero) (val far_z) (val fzero)).
Proof.
  assert (X : { a : R | val far_x = a }) by (eexists; reflexivity). clear X.
  assert (X0 : 0 <= val far_x) by (unfold far_x; literal (lit 346 3)). rewrite upwards by exact X0. unfold reachable, small. cbn [A0 A1 A2 A3].
  assert (L : 3 / 10 <= val far_x) by (unfold far_x; literal (lit 346 3)).
  split.
  - assert (3 / 10 - / 1000 <= val (lit 3 1) <= 3 / 10 + / 1000) by literal (lit 3 1). assert (4 / 10 - / 1000 <= val (lit 4 1) <= 4 / 10 + / 1000) by literal (lit 4 1).
    apply Rle_trans with (3 / 10). { rewrite Rplus_0_r. apply abs_of. lra. }
    rewrite <- (sqrt_square (3 / 10)) by lra. apply sqrt_le_1_alt. pose proof (Rle_0_sqr (val far_z - val (lit 3 1) - val (lit 2 1))) as Q. unfold Rsqr in Q. assert (3 / 10 * (3 / 10) <= val far_x * val far_x) by (apply two_pos; lra). lra.
  - rewrite Rminus_0_r. apply sqrt_below. { assert (0 <= val (lit 3 1)) by literal (lit 3 1). assert (0 <= val (lit 4 1)) by literal (lit 4 1). lra. }
    assert (Q : forall v b, B2SF v = b -> val v = SF2R radix2 b) by (intros v b <-; unfold val; now rewrite SF2R_B2SF).
    rewrite (Q far_x _ ltac:(vm_compute; reflexivity)), (Q far_z _ ltac:(vm_compute; reflexivity)), (Q (lit 3 1) _ ltac:(vm_compute; reflexivity)), (Q (lit 2 1) _ ltac:(vm_compute; reflexivity)), (Q (lit 4 1) _ ltac:(vm_compute; reflexivity)).
    unfold SF2R, F2R. cbn. lra.
Qed.
Lemma far_refused : forall m, exact_at_zero m -> closed_form m small far_x fzero far_z fzero = None.
Proof. intros m (S0 & C0). unfold closed_form. rewrite S0, C0. vm_compute. reflexivity. Qed.
Theorem edge_refused : exists s x y z, lengths s /\ finite x = true /\ finite y = true /\ finite z = true /\
  reachable s 0 (wrist_distance s (val x) (val y) (val z) 0) /\
  forall m lo hi oz5 guess, exact_at_zero m -> invKin m s lo hi x y z fzero oz5 guess = Refused.
Proof.
  exists small, far_x, fzero, far_z. split; [exact small_lengths|]. do 3 (split; [reflexivity|]). split; [exact far_reachable|].
  intros m lo hi oz5 guess Z. unfold invKin. now rewrite far_refused.
Qed.
Example edge_example : accurate ideal /\ exact_at_zero ideal.
Proof. exact (conj ideal_accurate ideal_zero). Qed.

(** ** a target well within reach of the default links *)
Lemma default_lengths : lengths default_links.
Proof.
  unfold lengths, default_links. cbn [A0 A1 A2 A3]. assert (2 / 10 <= val (lit 3 1) <= 4 / 10) by literal (lit 3 1). assert (3 / 10 <= val (lit 4 1) <= 5 / 10) by literal (lit 4 1).
  repeat split; try reflexivity; lra.
Qed.
Example margin_example : accurate ideal /\ lengths default_links /\ finite (lit 5 1) = true /\ Rabs (val fzero) <= 10 /\
  reachable default_links (/ 100000) (wrist_distance default_links (val (lit 5 1)) (val fzero) (val (ofZ 1)) (val fzero)).
Proof.
  split; [exact ideal_accurate|]. split; [exact default_lengths|]. split; [reflexivity|]. split. { change (val fzero) with 0. rewrite Rabs_R0. lra. }
  destruct lit_half as (_ & H5). destruct (ofZ_ok 1 ltac:(lia)) as (_ & V1). rewrite upwards by lra. rewrite H5, V1. unfold reachable, default_links. cbn [A0 A1 A2 A3].
  assert (3 / 10 - / 1000 <= val (lit 3 1) <= 3 / 10 + / 1000) by literal (lit 3 1). assert (4 / 10 - / 1000 <= val (lit 4 1) <= 4 / 10 + / 1000) by literal (lit 4 1).
  assert (Q : 0 <= (1 - val (lit 3 1) - val (lit 3 1)) * (1 - val (lit 3 1) - val (lit 3 1)) <= 41 / 100 * (41 / 100)) by (apply sq_mono; lra).
  split.
  - unfold Rminus at 1. rewrite Rplus_opp_r, Rabs_R0. rewrite <- (sqrt_square (0 + / 100000)) by lra. apply sqrt_le_1_alt. lra.
  - apply sqrt_below; [lra|]. assert (7 / 10 * (7 / 10) <= (val (lit 4 1) + val (lit 4 1) - / 100000) * (val (lit 4 1) + val (lit 4 1) - / 100000)) by (apply two_pos; lra). lra.
Qed.

(** ** an answer: with the arm upright and stretched (tested with a library that knows sine, cosine and
    atan2 at zero only) *)
Definition toy : libm := Libm (fun _ => fzero) (fun _ => ofZ 1) (fun _ _ => fzero).
Definition lows : list f64 := [ofZ (-90); ofZ (-90); ofZ (-90); ofZ (-90); ofZ (-90)].
Definition highs : list f64 := [ofZ 90; ofZ 90; ofZ 90; ofZ 90; ofZ 90].
Definition rest : list f64 := [fzero; fzero; fzero; fzero; fzero].
Lemma degrees_ofZ : forall n, (Z.abs n <= 1000000)%Z -> degrees (ofZ n).
Proof. intros n H. destruct (ofZ_ok n ltac:(lia)) as (F & V). split; [exact F|]. rewrite V, <- abs_IZR. now apply IZR_le. Qed.
Example found_example : Forall degrees lows /\ Forall degrees highs /\ Forall degrees rest /\
  exists q, invKin toy default_links lows highs (lit 1 1) fzero (lit 12 1) fzero fzero rest = Found q.
Proof.
  split; [repeat (constructor; [apply degrees_ofZ; lia|]); constructor|]. split; [repeat (constructor; [apply degrees_ofZ; lia|]); constructor|].
  split. { assert (degrees fzero) by (split; [reflexivity|change (val fzero) with 0; rewrite Rabs_R0; lra]). repeat (constructor; [assumption|]). constructor. }
  assert (E : match invKin toy default_links lows highs (lit 1 1) fzero (lit 12 1) fzero fzero rest with Found _ => true | _ => false end = true) by (vm_compute; reflexivity).
  destruct (invKin toy _ _ _ _ _ _ _ _ _) as [|q|]; try discriminate E. now exists q.
Qed.
(** a target whose orientation is not a number is refused *)
Example nan_example : invKin toy default_links lows highs (lit 1 1) fzero (lit 12 1) fzero fnan rest = Refused.
Proof. vm_compute. reflexivity. Qed.
(** with a guess that is not made of numbers, the first valid configuration is taken *)
Example blind_example : match invKin toy default_links lows highs (lit 1 1) fzero (lit 12 1) fzero fzero [fnan; fnan; fnan; fnan; fnan] with Found _ => true | _ => false end = true.
Proof. vm_compute. reflexivity. Qed.
