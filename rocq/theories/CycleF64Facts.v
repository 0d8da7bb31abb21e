(** Proofs about the parameters, the velocity profile and the control cycles on doubles. *)
From Coq Require Import List ZArith Reals Lia Lra Bool.
From Flocq Require Import Core IEEE754.BinarySingleNaN.
From Verif Require Import F64 F64Facts F64More Rounded RoundedSpec RoundedFacts JointMoveF64Facts CycleF64 CycleF64Spec.
Import ListNotations.
Open Scope R_scope.

(** ** conversion to int *)
Lemma truncated : forall m e, exists a, (if (0 <=? e)%Z then (Z.pos m * 2 ^ e)%Z else (Z.pos m / 2 ^ (- e))%Z) = a /\
  (0 <= a)%Z /\ IZR a <= IZR (Z.pos m) * bpow radix2 e < IZR a + 1.
Proof.
  intros m e. destruct (Z.leb_spec 0 e) as [H|H].
  - exists (Z.pos m * 2 ^ e)%Z. split; [reflexivity|]. split; [apply Z.mul_nonneg_nonneg; [lia|apply Z.pow_nonneg; lia]|].
    rewrite mult_IZR. assert (E : bpow radix2 e = IZR (2 ^ e)) by (rewrite <- (IZR_Zpower radix2 e H); reflexivity). rewrite E. lra.
  - exists (Z.pos m / 2 ^ (- e))%Z. split; [reflexivity|]. assert (P : (0 < 2 ^ (- e))%Z) by (apply Z.pow_pos_nonneg; lia).
    split; [apply Z.div_pos; lia|].
    assert (E : bpow radix2 e = / IZR (2 ^ (- e))). { rewrite <- (Z.opp_involutive e) at 1. rewrite bpow_opp. f_equal. rewrite <- (IZR_Zpower radix2 (- e)) by lia. reflexivity. }
    rewrite E. pose proof (Z.div_mod (Z.pos m) (2 ^ (- e)) ltac:(lia)) as D. pose proof (Z.mod_pos_bound (Z.pos m) (2 ^ (- e)) P) as B.
    set (a := (Z.pos m / 2 ^ (- e))%Z) in *. set (n := (2 ^ (- e))%Z) in *. assert (Pn : 0 < IZR n) by now apply (IZR_lt 0).
    assert (L : (n * a <= Z.pos m < n * (a + 1))%Z) by lia. destruct L as (L1 & L2). apply IZR_le in L1. apply IZR_lt in L2. rewrite mult_IZR in L1, L2. rewrite plus_IZR in L2.
    split.
    + apply (Rmult_le_reg_r (IZR n)); [exact Pn|]. rewrite Rmult_assoc, Rinv_l, Rmult_1_r by lra. lra.
    + apply (Rmult_lt_reg_r (IZR n)); [exact Pn|]. rewrite Rmult_assoc, Rinv_l, Rmult_1_r by lra. lra.
Qed.
Lemma to_int_ok : forall x, finite x = true -> Rabs (val x) < 2147483648 -> exists z, to_int x = Some z /\ whole_part (val x) z.
Proof.
  intros x F B. destruct x as [s|s| |s m e H]; try discriminate F.
  - exists 0%Z. split; [reflexivity|]. unfold whole_part, val. cbn. rewrite Rabs_R0, Rminus_0_r, Rabs_R0. lra.
  - destruct (truncated m e) as (a & E & P & L). unfold to_int. rewrite E. clear E.
    assert (V : val (B754_finite s m e H) = if s then - (IZR (Z.pos m) * bpow radix2 e) else IZR (Z.pos m) * bpow radix2 e).
    { unfold val, B2R, F2R. cbn [Fnum Fexp]. destruct s; [|reflexivity]. cbn [cond_Zopp]. rewrite opp_IZR. lra. }
    rewrite V in *. clear V. assert (Pa : 0 <= IZR a) by now apply (IZR_le 0). set (y := IZR (Z.pos m) * bpow radix2 e) in *.
    assert (Ba : IZR a < 2147483648). { destruct s; [rewrite Rabs_Ropp in B|]; apply Rabs_def2 in B; lra. } apply lt_IZR in Ba.
    exists (if s then - a else a)%Z. split.
    + destruct s; (replace (_ && _) with true; [reflexivity|]); symmetry; apply andb_true_intro; split; apply Z.leb_le; lia.
    + unfold whole_part. destruct s.
      * rewrite opp_IZR, !Rabs_Ropp, (Rabs_pos_eq _ Pa), (Rabs_pos_eq y) by lra. split; [lra|]. apply Rabs_def1; lra.
      * rewrite (Rabs_pos_eq _ Pa), (Rabs_pos_eq y) by lra. split; [lra|]. apply Rabs_def1; lra.
Qed.

(** ** parameters *)
Lemma not_below : forall v, isnan v = false -> fltb v fzero = false -> fleb fzero v = true.
Proof. intros [[]|[]| |[] ? ? ?]; intros; try discriminate; reflexivity. Qed.
Lemma not_above : forall v, isnan v = false -> fleb v fzero = false -> fltb fzero v = true.
Proof. intros [[]|[]| |[] ? ? ?]; intros; try discriminate; reflexivity. Qed.
Lemma settings_kept : forall calls p p', in_order p -> Forall (fun c => isnan (snd c) = false) calls -> settings p calls = Some p' -> in_order p'.
Proof.
  induction calls as [|[[[a b] k] v] calls IH]; intros p p' O N E; cbn in E; [congruence|]. inversion N as [|? ? Nv N']; subst. cbn in Nv.
  destruct (setParameter a b p k v) as [|p1|] eqn:R; [exact (IH _ _ O N' E)| |discriminate]. refine (IH _ _ _ N' E). destruct O as (G & D). clear IH E.
  unfold setParameter in R. destruct k.
  - destruct (fltb v fzero) eqn:C; [discriminate|]. injection R as <-. split; [now apply not_below|exact D].
  - destruct (fleb v fzero) eqn:C; [discriminate|]. injection R as <-. split; [exact G|now apply not_above].
  - destruct (negb a); [discriminate|]. destruct (to_int v); [|discriminate]. injection R as <-. now split.
  - destruct (fleb v fzero); [discriminate|]. destruct (to_int v); [|discriminate]. injection R as <-. now split.
  - destruct (_ && _); [discriminate|]. destruct (to_int v); [|discriminate]. injection R as <-. now split.
  - destruct (to_int v) as [z|]; [|discriminate]. destruct (b z); [|discriminate]. injection R as <-. now split.
  - discriminate.
Qed.
Lemma setParameter_defined : forall a b p k v, finite v = true -> Rabs (val v) < 2147483648 ->
  setParameter a b p k v <> Undefined /\ (forall p', setParameter a b p k v = Set_to p' -> holds k v p').
Proof.
  intros a b p k v F B. destruct (to_int_ok v F B) as (z & E & T). unfold setParameter. rewrite E. destruct k.
  - destruct (fltb v fzero); (split; [discriminate|]); intros p' H; try discriminate H. now injection H as <-.
  - destruct (fleb v fzero); (split; [discriminate|]); intros p' H; try discriminate H. now injection H as <-.
  - destruct (negb a); (split; [discriminate|]); intros p' H; try discriminate H. now injection H as <-.
  - destruct (fleb v fzero); (split; [discriminate|]); intros p' H; try discriminate H. now injection H as <-.
  - destruct (_ && _); (split; [discriminate|]); intros p' H; try discriminate H. now injection H as <-.
  - destruct (b z); (split; [discriminate|]); intros p' H; try discriminate H. now injection H as <-.
  - split; [discriminate|]. intros p' H; discriminate H.
Qed.

(** ** the beginning of a profile *)
Lemma fdiv_pos : forall x y, finite x = true -> finite y = true -> 0 < val x -> 0 < val y ->
  (finite (fdiv x y) = true /\ val (fdiv x y) = rnd (val x / val y) /\ Bsign (fdiv x y) = false) \/ fdiv x y = B754_infinity false.
Proof.
  intros x y Fx Fy Px Py. pose proof (Bdiv_correct 53 1024 p53 p53_1024 mode_NE x y ltac:(fold (val y); lra)) as H. fold (fdiv x y) in H.
  assert (S : forall z : f64, finite z = true -> 0 < val z -> Bsign z = false).
  { intros [?|?| |[] m e B] Fz Pz; try discriminate Fz; try reflexivity; unfold val, B2R in Pz; [lra|].
    assert (F2R (Float radix2 (Z.neg m) e) < 0) by now apply F2R_lt_0. cbn [cond_Zopp Z.opp] in Pz. lra. }
  destruct (Rlt_bool _ _).
  - left. destruct H as (V & F & Sg). fold (finite x) in F. rewrite Fx in F. split; [exact F|]. split; [unfold val; rewrite V; apply rnd_fexp|].
    rewrite Sg by (now apply finite_not_nan). now rewrite (S x Fx Px), (S y Fy Py).
  - right. rewrite (S x Fx Px), (S y Fy Py) in H. apply of_sf. exact H.
Qed.
Definition ten : f64 := ofZ 10.
Lemma t_whole : fdiv ten ten = ofZ 1.
Proof. apply of_sf. vm_compute. reflexivity. Qed.
Lemma x_whole : fmul (ofZ 2) (fdiv (fmul (fmul (ofZ 1) ten) (fmul (ofZ 1) (ofZ 1))) (ofZ 2)) = ten.
Proof. apply of_sf. vm_compute. reflexivity. Qed.
Lemma a_whole : fdiv (fmul (ofZ 1) ten) (ofZ 2) = ofZ 5.
Proof. apply of_sf. vm_compute. reflexivity. Qed.
Lemma one_ten : fmul (ofZ 1) ten = ten.
Proof. apply of_sf. vm_compute. reflexivity. Qed.
Lemma two_one : fmul (ofZ 2) (ofZ 1) = ofZ 2.
Proof. apply of_sf. vm_compute. reflexivity. Qed.

Lemma rnd_low : forall e x, (-1074 <= e)%Z -> bpow radix2 e <= x -> bpow radix2 e <= rnd x.
Proof. intros e x H L. rewrite <- (rnd_bpow e H). now apply rnd_le. Qed.
Lemma rnd_high : forall e x, (-1074 <= e)%Z -> x <= bpow radix2 e -> rnd x <= bpow radix2 e.
Proof. intros e x H L. apply Rle_trans with (rnd (bpow radix2 e)); [now apply rnd_le|]. rewrite (rnd_bpow e H). apply Rle_refl. Qed.

Lemma profile_start : forall l, a_length l -> let p := trap_set ten ten fzero l in
  finite (t_1 p) = true /\ 0 < val (t_1 p) /\ finite (t_total p) = true /\ 0 < val (t_total p) /\
  a_1 p = fzero /\ a_2 p = fzero /\ a_3 p = ofZ 5.
Proof.
  intros l (F & B). pose proof huge_big as Hb.
  destruct (ofZ_ok 10 ltac:(lia)) as (F10 & V10). destruct (ofZ_ok 2 ltac:(lia)) as (F2 & V2). destruct (ofZ_ok 1 ltac:(lia)) as (F1 & V1).
  fold ten in F10, V10.
  destruct (fsub_ok l fzero F eq_refl) as (Fd & Vd). { change (val fzero) with 0. apply Rabs_le. lra. }
  change (val fzero) with 0 in Vd. rewrite Rminus_0_r, rnd_val in Vd.
  assert (Sg : fltb (fsub l fzero) fzero = false). { apply not_true_iff_false. intro C. apply fltb_val in C; [|exact Fd|reflexivity]. change (val fzero) with 0 in C. lra. }
  intro p. unfold p, trap_set. cbn [t_1 t_total a_1 a_2 a_3]. rewrite Sg, t_whole, x_whole, one_ten, two_one. clear p.
  assert (A5 : fdiv ten (ofZ 2) = ofZ 5) by (rewrite <- one_ten at 1; apply a_whole). rewrite A5. clear A5.
  assert (P120 : bpow radix2 100 = 1267650600228229401496703205376) by (cbn; lra).
  destruct (fsub_ok (fsub l fzero) ten Fd F10) as (Fe & Ve). { rewrite Vd, V10. apply Rabs_le. lra. }
  destruct (fdiv_ok (fsub (fsub l fzero) ten) ten Fe) as (Fg & Vg). { rewrite V10. lra. }
  { assert (Rabs (val (fsub (fsub l fzero) ten)) <= 1000000000000000000000000).
    { rewrite Ve, rnd_abs. apply Rle_trans with (bpow radix2 70); [apply rnd_high; [lia|]|cbn; lra]. rewrite Vd, V10. apply Rabs_le. cbn. lra. }
    rewrite V10. unfold Rdiv. rewrite Rabs_mult, (Rabs_pos_eq (/ 10)) by lra. lra. }
  assert (Gb : val (fdiv (fsub (fsub l fzero) ten) ten) <= bpow radix2 70).
  { rewrite Vg. apply rnd_high; [lia|]. rewrite V10. apply Rle_trans with (bpow radix2 70 / 10); [|cbn; lra]. apply Rmult_le_compat_r; [lra|]. rewrite Ve. apply rnd_high; [lia|]. rewrite Vd, V10. cbn. lra. }
  destruct (fltb fzero (fdiv (fsub (fsub l fzero) ten) ten)) eqn:Go.
  - apply fltb_val in Go; [|reflexivity|exact Fg]. change (val fzero) with 0 in Go. split; [exact F1|]. split; [rewrite V1; lra|].
    set (g := fdiv (fsub (fsub l fzero) ten) ten) in *. assert (bpow radix2 70 <= 10000000000000000000000000) by (cbn; lra).
    destruct (fadd_ok (ofZ 2) g F2 Fg) as (Fh & Vh). { rewrite V2. apply Rabs_le. lra. }
    split; [exact Fh|]. split; [|repeat split; reflexivity]. rewrite Vh, V2. apply Rlt_le_trans with (bpow radix2 0); [cbn; lra|]. apply rnd_low; [lia|]. cbn. lra.
  - destruct (fdiv_ok (fsub l fzero) (ofZ 1) Fd) as (Fi & Vi). { rewrite V1. lra. } { rewrite Vd, V1. apply Rabs_le. lra. }
    rewrite Vd, V1 in Vi. replace (val l / 1) with (val l) in Vi by lra. rewrite rnd_val in Vi.
    destruct (fdiv_ok (fdiv (fsub l fzero) (ofZ 1)) ten Fi) as (Fj & Vj). { rewrite V10. lra. } { rewrite Vi, V10. apply Rabs_le. lra. }
    rewrite Vi, V10 in Vj. set (j := fdiv (fdiv (fsub l fzero) (ofZ 1)) ten) in *.
    assert (Lj : bpow radix2 (-70) <= val j). { rewrite Vj. apply rnd_low; [lia|]. cbn. lra. }
    assert (Uj : val j <= bpow radix2 70). { rewrite Vj. apply rnd_high; [lia|]. cbn. lra. }
    assert (Pj : 0 <= val j) by (pose proof (bpow_gt_0 radix2 (-70)); lra).
    destruct (fsqrt_ok j Fj Pj) as (Fk & Vk).
    assert (Lk : bpow radix2 (-35) <= val (fsqrt j)).
    { rewrite Vk. apply rnd_low; [lia|]. rewrite <- (sqrt_square (bpow radix2 (-35))) by apply bpow_ge_0. apply sqrt_le_1_alt. rewrite <- bpow_plus. exact Lj. }
    assert (Uk : val (fsqrt j) <= bpow radix2 35).
    { rewrite Vk. apply rnd_high; [lia|]. rewrite <- (sqrt_square (bpow radix2 35)) by apply bpow_ge_0. apply sqrt_le_1_alt. rewrite <- bpow_plus. exact Uj. }
    pose proof (bpow_gt_0 radix2 (-35)) as P35. assert (U35 : bpow radix2 35 <= 100000000000) by (cbn; lra).
    split; [exact Fk|]. split; [lra|].
    destruct (fmul_ok (fsqrt j) (ofZ 2) Fk F2) as (Fm & Vm). { rewrite V2. apply Rabs_le. lra. }
    split; [exact Fm|]. split; [|repeat split; reflexivity]. rewrite Vm, V2. apply Rlt_le_trans with (bpow radix2 (-35)); [exact P35|]. apply rnd_low; [lia|]. lra.
Qed.

(** a factor that is not above 1 *)
Lemma small_factor : forall d s, finite d = true -> 0 < val d -> fltb fzero s = true -> fltb (ofZ 1) (fdiv d s) = false ->
  finite (fdiv d s) = true /\ 0 <= val (fdiv d s) <= 1 /\ Bsign (fdiv d s) = false.
Proof.
  intros d s Fd Pd Ps C. destruct (ofZ_ok 1 ltac:(lia)) as (F1 & V1). destruct (finite s) eqn:Fs.
  - apply fltb_val in Ps; [|reflexivity|exact Fs]. change (val fzero) with 0 in Ps. destruct (fdiv_pos d s Fd Fs Pd Ps) as [(F & V & Sg)|E].
    + split; [exact F|]. split; [|exact Sg]. split; [rewrite V; apply rnd_pos; apply Rlt_le, Rdiv_lt_0_compat; assumption|].
      apply fltb_false in C; [|exact F1|exact F]. rewrite V1 in C. exact C.
    + rewrite E in C. vm_compute in C. discriminate.
  - destruct s as [?|[]| |[] ? ? ?]; try discriminate Fs; try (vm_compute in Ps; discriminate Ps).
    destruct d as [?|?| |[] m e B]; try discriminate Fd.
    + unfold val in Pd. cbn in Pd. lra.
    + exfalso. unfold val, B2R in Pd. assert (F2R (Float radix2 (Z.neg m) e) < 0) by now apply F2R_lt_0. cbn [cond_Zopp Z.opp] in Pd. lra.
    + unfold val. cbn. repeat split; lra.
Qed.

Lemma early : forall t1 k, finite t1 = true -> 0 < val t1 -> finite k = true -> 0 <= val k <= 1 -> Bsign k = false -> fltb fzero (fdiv t1 k) = true.
Proof.
  intros t1 k Ft Pt Fk Bk Sk. destruct (Rle_lt_or_eq_dec 0 (val k) (proj1 Bk)) as [P|Z].
  - destruct (fdiv_pos t1 k Ft Fk Pt P) as [(F & V & _)| ->]; [|reflexivity]. apply fltb_val; [reflexivity|exact F|]. change (val fzero) with 0.
    apply Rlt_le_trans with (val t1); [exact Pt|]. rewrite V, <- (rnd_val t1) at 1. apply rnd_le.
    apply (Rmult_le_reg_r (val k)); [exact P|]. unfold Rdiv. rewrite Rmult_assoc, Rinv_l by lra. nra.
  - destruct k as [s|?| |s m e B]; try discriminate Fk.
    + cbn in Sk. subst s. destruct t1 as [?|?| |[] m e B]; try discriminate Ft.
      * unfold val in Pt. cbn in Pt. lra.
      * exfalso. unfold val, B2R in Pt. assert (F2R (Float radix2 (Z.neg m) e) < 0) by now apply F2R_lt_0. cbn [cond_Zopp Z.opp] in Pt. lra.
      * reflexivity.
    + exfalso. cbn in Sk. subst s. unfold val, B2R in Z. assert (0 < F2R (Float radix2 (Z.pos m) e)) by now apply F2R_gt_0. cbn [cond_Zopp] in Z. lra.
Qed.

Lemma nought : forall a2 a3, finite a2 = true -> finite a3 = true -> Rabs (val a2) <= 10 -> Rabs (val a3) <= 10 ->
  finite (fadd fzero (fmul fzero (fadd a2 (fmul a3 fzero)))) = true /\ val (fadd fzero (fmul fzero (fadd a2 (fmul a3 fzero)))) = 0.
Proof.
  intros a2 a3 F2 F3 B2 B3. pose proof huge_big as H.
  destruct (fmul_ok a3 fzero F3 eq_refl) as (Fa & Va). { change (val fzero) with 0. rewrite Rmult_0_r, Rabs_R0. lra. }
  change (val fzero) with 0 in Va. rewrite Rmult_0_r, rnd_0 in Va.
  destruct (fadd_ok a2 _ F2 Fa) as (Fb & Vb). { rewrite Va, Rplus_0_r. lra. }
  destruct (fmul_ok fzero _ eq_refl Fb) as (Fc & Vc). { change (val fzero) with 0. rewrite Rmult_0_l, Rabs_R0. lra. }
  change (val fzero) with 0 in Vc. rewrite Rmult_0_l, rnd_0 in Vc.
  destruct (fadd_ok fzero _ eq_refl Fc) as (Fd & Vd). { change (val fzero) with 0. rewrite Vc, Rplus_0_l, Rabs_R0. lra. }
  split; [exact Fd|]. rewrite Vd, Vc. change (val fzero) with 0. rewrite Rplus_0_l. apply rnd_0.
Qed.

Lemma starts : forall l seconds, a_length l -> fltb fzero seconds = true ->
  let p := trap_duration ten ten fzero l seconds in finite (trap_pos p fzero) = true /\ val (trap_pos p fzero) = 0.
Proof.
  intros l seconds L S p. destruct (profile_start l L) as (F1 & P1 & Fd & Pd & A1 & A2 & A3). unfold p, trap_duration. clear p.
  set (p := trap_set ten ten fzero l) in *. destruct (ofZ_ok 5 ltac:(lia)) as (F5 & V5). pose proof huge_big as H.
  destruct (fltb (ofZ 1) (fdiv (t_total p) seconds)) eqn:C.
  - unfold trap_pos. change (fltb fzero fzero) with false. cbv iota. assert (E : fltb fzero (t_1 p) = true) by (apply fltb_val; [reflexivity|exact F1|exact P1]). rewrite E, A1, A2, A3.
    apply nought; [reflexivity|exact F5|change (val fzero) with 0; rewrite Rabs_R0; lra|rewrite V5, Rabs_pos_eq; lra].
  - destruct (small_factor _ _ Fd Pd S C) as (Fk & Bk & Sk). set (k := fdiv (t_total p) seconds) in *. unfold trap_pos. cbn [t_1 a_1 a_2 a_3].
    change (fltb fzero fzero) with false. cbv iota. rewrite (early _ _ F1 P1 Fk Bk Sk), A1, A2, A3.
    destruct (fmul_ok fzero k eq_refl Fk) as (Fa & Va). { change (val fzero) with 0. rewrite Rmult_0_l, Rabs_R0. lra. }
    change (val fzero) with 0 in Va. rewrite Rmult_0_l, rnd_0 in Va.
    destruct (fmul_ok k k Fk Fk) as (Fb & Vb). { apply Rabs_le. nra. }
    assert (Bb : 0 <= val (fmul k k) <= 1). { rewrite Vb. split; [apply rnd_pos; nra|]. change 1 with (bpow radix2 0). apply rnd_high; [lia|]. cbn. nra. }
    destruct (fmul_ok (ofZ 5) _ F5 Fb) as (Fc & Vc). { rewrite V5. apply Rabs_le. lra. }
    apply nought; [exact Fa|exact Fc|rewrite Va, Rabs_R0; lra|]. rewrite Vc, V5. assert (0 <= rnd (5 * val (fmul k k)) <= 8). { split; [apply rnd_pos; lra|]. change 8 with (bpow radix2 3). apply rnd_high; [lia|]. cbn. lra. }
    rewrite Rabs_pos_eq; lra.
Qed.

(** ** a duration that is NaN *)
Lemma fdiv_nan_r : forall x, fdiv x fnan = fnan. Proof. intros [?|?| |? ? ? ?]; reflexivity. Qed.
Lemma jumps : forall l t, fltb t fzero = false -> let p := trap_duration ten ten fzero l fnan in trap_pos p t = l /\ fltb (t_total p) t = false.
Proof.
  intros l t H p. unfold p, trap_duration. rewrite fdiv_nan_r, fltb_nan_r. unfold trap_pos. cbn [t_1 t_2 t_total t_end]. rewrite H, !fdiv_nan_r, !fltb_nan_r, fleb_nan_r, fltb_nan_l. split; reflexivity.
Qed.
Lemma line_jumps : forall invKin ws t q, fltb t fzero = false ->
  handleMovlPosd invKin (map (fun w => line w fnan) ws) t q =
  match invKin (concat (map (fun w => pose_on w (len w)) ws)) q with None => Fails | Some a => Positions a end.
Proof.
  intros invKin ws t q H. unfold handleMovlPosd.
  assert (E : ended (map (fun w => line w fnan) ws) t = false).
  { unfold ended. induction ws as [|w ws IH]; [reflexivity|]. cbn [map existsb]. rewrite IH, orb_false_r. exact (proj2 (jumps (len w) t H)). }
  rewrite E. rewrite map_map. replace (map (fun w => m_pos (line w fnan) t) ws) with (map (fun w => pose_on w (len w)) ws); [reflexivity|].
  apply map_ext. intro w. cbn [line m_pos]. f_equal. symmetry. exact (proj1 (jumps (len w) t H)).
Qed.

(** ** what a cycle sends *)
Lemma cycle_speeds : forall fwdKin poseDiff diffInvKin invKin js p ms movv posd t q v, Forall sane js ->
  run fwdKin poseDiff diffInvKin invKin js p ms movv posd t q = Velocities v -> numbers in_speed js v.
Proof.
  intros f pd d iv js p ms movv posd t q v S.
  assert (K : command f pd d js p ms t q = Velocities v -> numbers in_speed js v).
  { unfold command. destruct (f q); [|discriminate]. destruct (d q _) as [w|]; [|discriminate]. destruct (checkJointVelocities js w) eqn:C; [|discriminate]. intro H. injection H as <-. now apply speeds_numbers. }
  unfold run. destruct (negb _); [discriminate|]. destruct movv; [exact K|]. destruct posd.
  - unfold handleMovlPosd. destruct (ended ms t); [discriminate|]. destruct (iv _ q); discriminate.
  - unfold handleMovlVel. destruct (ended ms t); [discriminate|exact K].
Qed.
Lemma fmul_nan_l : forall x, fmul fnan x = fnan. Proof. intros [?|?| |? ? ? ?]; reflexivity. Qed.
Lemma laws_nan : forall p diff xdot, p_gain p = fnan -> length diff = length xdot -> laws p diff xdot = map (fun _ => fnan) diff.
Proof.
  intros p diff xdot G. revert xdot. induction diff as [|x diff IH]; intros [|v xdot] L; try discriminate L; [reflexivity|]. cbn [laws map]. f_equal; [|apply IH; now injection L].
  unfold law. now rewrite G, fmul_nan_l, fmul_nan_r, fadd_nan_l.
Qed.
Lemma gain_nan : forall fwdKin poseDiff pinv invKin js p ms movv t q currentX,
  p_gain p = fnan -> checkJointLimits js q = true -> fwdKin q = Some currentX -> (movv = true \/ Forall (fun m => fltb (m_duration m) t = false) ms) ->
  let diff := poseDiff (concat (map (fun m => m_pos m t) ms)) currentX in
  (0 < length diff)%nat -> length diff = length (concat (map (fun m => m_vel m t) ms)) -> Forall (fun row => length row = length diff) (pinv q) ->
  run fwdKin poseDiff (fun q x => Some (matrix_times (pinv q) x)) invKin js p ms movv false t q = Velocities (map (fun _ => fnan) (pinv q)).
Proof.
  intros f pd pinv iv js p ms movv t q cx G L F E diff P Q R.
  assert (K : command f pd (fun q x => Some (matrix_times (pinv q) x)) js p ms t q = Velocities (map (fun _ => fnan) (pinv q))).
  { unfold command. rewrite F. fold diff. rewrite (laws_nan p _ _ G Q). rewrite matrix_nan.
    - now rewrite velocities_nan.
    - now rewrite map_length.
    - destruct diff; [cbn in P; lia|now left]. }
  unfold run. rewrite L. cbn [negb]. destruct movv; [exact K|]. unfold handleMovlVel. replace (ended ms t) with false; [exact K|].
  destruct E as [E|E]; [discriminate|]. symmetry. unfold ended. clear - E. induction E as [|m ms E _ IH]; [reflexivity|]. cbn [existsb]. now rewrite E, IH.
Qed.
Lemma line_starts : forall w seconds, a_length (len w) -> fltb fzero seconds = true ->
  exists s, m_pos (line w seconds) fzero = pose_on w s /\ finite s = true /\ val s = 0.
Proof. intros w seconds L S. eexists. split; [reflexivity|]. exact (starts (len w) seconds L S). Qed.
(** ** the end of a line *)
Lemma over_infinity : forall d, finite d = true -> fltb (ofZ 1) (fdiv d (B754_infinity false)) = false.
Proof. intros [[]|?| |[] ? ? ?] F; try discriminate F; reflexivity. Qed.
Lemma line_lasts : forall w seconds t, a_length (len w) -> fltb fzero seconds = true ->
  fltb (m_duration (line w seconds)) t = true -> fltb seconds t = true.
Proof.
  intros w seconds t L S H. destruct (profile_start (len w) L) as (_ & _ & Fd & Pd & _). unfold line, trap_duration in H. cbn [m_duration] in H. fold ten in H.
  set (p := trap_set ten ten fzero (len w)) in *. destruct (fltb (ofZ 1) (fdiv (t_total p) seconds)) eqn:C; [|exact H].
  assert (Nt : isnan t = false). { destruct t; try reflexivity. rewrite fltb_nan_r in H. discriminate H. }
  destruct (ofZ_ok 1 ltac:(lia)) as (F1 & V1). destruct (finite seconds) eqn:Fs.
  - apply fltb_val in S; [|reflexivity|exact Fs]. change (val fzero) with 0 in S. destruct (Rle_lt_dec (val (t_total p)) (val seconds)) as [B|B].
    + exfalso. assert (Q : 0 <= val (t_total p) / val seconds <= 1).
      { split; [apply Rlt_le, Rdiv_lt_0_compat; assumption|]. apply (Rmult_le_reg_r (val seconds)); [exact S|]. unfold Rdiv. rewrite Rmult_assoc, Rinv_l by lra. lra. }
      destruct (fdiv_ok (t_total p) seconds Fd) as (Fq & Vq); [lra|pose proof huge_big; apply Rabs_le; lra|]. apply fltb_val in C; [|exact F1|exact Fq].
      rewrite V1, Vq in C. apply Rlt_not_le in C. apply C. change 1 with (bpow radix2 0). apply rnd_high; [lia|]. change (bpow radix2 0) with 1. exact (proj2 Q).
    + apply key_lt in H; [|now apply finite_not_nan|exact Nt]. apply key_lt; [now apply finite_not_nan|exact Nt|]. destruct (key_finite _ Fs) as (-> & _). destruct (key_finite _ Fd) as (E & _). rewrite E in H. lra.
  - exfalso. destruct seconds as [?|[]| |[] ? ? ?]; try discriminate Fs; try (vm_compute in S; discriminate S).
    clear - Fd C. clearbody p. generalize dependent (t_total p). clear p. intros d C Fd. rewrite over_infinity in C by exact Fd. discriminate C.
Qed.
