From Coq Require Import List ZArith Reals Lia Lra Psatz Bool.
From Flocq Require Import Core IEEE754.BinarySingleNaN.
From Verif Require Import F64 F64Facts Rounded RoundedSpec.
Import ListNotations.
Open Scope R_scope.

(** ** constants *)
Lemma huge_big : 1000000000000000000000000000000 <= huge.
Proof. unfold huge. apply Rle_trans with (bpow radix2 120); [|apply bpow_le; lia]. cbn. lra. Qed.
Lemma tiny_small : tiny <= / 1000000000000000000000000000000.
Proof.
  unfold tiny. apply Rle_trans with (bpow radix2 (-120)); [apply bpow_le; lia|]. cbn.
  apply Rinv_le; lra.
Qed.
Ltac big := pose proof huge_big; repeat match goal with H : Rabs _ <= _ |- _ => apply Rabs_le_inv in H end; apply Rabs_le; lra.

Lemma lit_eps : finite epsilon = true /\ / 1000000 <= val epsilon <= / 10000.
Proof.
  split; [reflexivity|]. assert (E : B2SF epsilon = SpecFloat.S754_finite false 5902958103587057 (-69)) by (vm_compute; reflexivity).
  unfold val. rewrite <- SF2R_B2SF, E. unfold SF2R, F2R; cbn. lra.
Qed.
Lemma lit_milli : finite (lit 1 3) = true /\ / 1001 <= val (lit 1 3) <= / 999.
Proof.
  split; [reflexivity|]. assert (E : B2SF (lit 1 3) = SpecFloat.S754_finite false 4611686018427388 (-62)) by (vm_compute; reflexivity).
  unfold val. rewrite <- SF2R_B2SF, E. unfold SF2R, F2R; cbn. lra.
Qed.
Lemma lit_half : finite (lit 5 1) = true /\ val (lit 5 1) = / 2.
Proof.
  split; [reflexivity|]. assert (E : B2SF (lit 5 1) = SpecFloat.S754_finite false 4503599627370496 (-53)) by (vm_compute; reflexivity).
  unfold val. rewrite <- SF2R_B2SF, E. unfold SF2R, F2R; cbn. lra.
Qed.

Lemma rnd_1 : forall x, 1 <= x -> 1 <= rnd x.
Proof. intros x H. change 1 with (bpow radix2 0) at 1. rewrite <- (rnd_bpow 0) by lia. now apply rnd_le. Qed.

Lemma ofZ_ok : forall m, (Z.abs m < 2 ^ 53)%Z -> finite (ofZ m) = true /\ val (ofZ m) = IZR m.
Proof.
  intros m H. pose proof (binary_normalize_correct 53 1024 p53 p53_1024 mode_NE m 0 false) as C. cbv zeta in C.
  assert (X : F2R (Float radix2 m 0) = IZR m) by (unfold F2R; cbn; lra). rewrite X in C.
  assert (F : rnd (IZR m) = IZR m).
  { apply round_generic; [apply valid_rnd_N|]. rewrite <- X. apply generic_format_FLT. exists (Float radix2 m 0); [reflexivity|exact H|cbn; lia]. }
  rewrite no_overflow in C.
  - destruct C as (V & G & _). split; [exact G|]. unfold val, ofZ. rewrite V. exact F.
  - rewrite <- abs_IZR. unfold huge. apply Rle_trans with (IZR (2 ^ 53)); [apply IZR_le; lia|]. change (IZR (2 ^ 53)) with (bpow radix2 53). apply bpow_le. lia.
Qed.

Lemma rnd_near : forall x b, Rabs x <= b -> b <= 1000000000000000 -> Rabs (rnd x - x) <= u * b + tiny.
Proof. intros x b H1 H2. pose proof (rnd_err x). pose proof u_pos. nra. Qed.

Lemma two52 : 2 ^ 52 = 4503599627370496.
Proof. lra. Qed.

(** ** the period *)
Lemma timestep_ok : forall ms, (0 < ms <= 1000000)%Z -> finite (timestep ms) = true /\ / 3000 <= val (timestep ms) <= 1000.
Proof.
  intros ms [A B]. destruct (ofZ_ok ms) as (F1 & V1); [lia|]. destruct lit_milli as (F2 & V2). destruct lit_half as (F3 & V3).
  apply IZR_lt in A as A'. apply IZR_le in B as B'. assert (A1 : 1 <= IZR ms) by (apply IZR_le; lia). clear A'.
  destruct (fmul_ok (ofZ ms) (lit 1 3) F1 F2) as (F4 & V4). { rewrite V1. assert (0 <= IZR ms * val (lit 1 3) <= 1000000 * / 999) by nra. big. }
  assert (V4' : / 1002 <= val (fmul (ofZ ms) (lit 1 3)) <= 1500).
  { rewrite V4, V1. assert (P : / 1001 <= IZR ms * val (lit 1 3) <= 1000000 * / 999) by nra.
    pose proof (rnd_err (IZR ms * val (lit 1 3))) as R. rewrite (Rabs_pos_eq (IZR ms * val (lit 1 3))) in R by lra. pose proof tiny_small. unfold u in R.
    apply Rabs_le_inv in R. lra. }
  destruct (fmul_ok _ (lit 5 1) F4 F3) as (F5 & V5). { rewrite V3. big. }
  unfold timestep. split; [exact F5|]. rewrite V5, V3. set (p := val (fmul (ofZ ms) (lit 1 3))) in *.
  pose proof (rnd_err (p * / 2)) as R. rewrite (Rabs_pos_eq (p * / 2)) in R by lra. pose proof tiny_small. unfold u in R. apply Rabs_le_inv in R. lra.
Qed.

(** ** limits *)
Lemma near_limit_false : forall j v, sane j -> near_limit j v = false -> isnan v = true \/ in_range j v.
Proof.
  intros j v (F1 & F2 & _ & _ & B1 & B2 & _) H. unfold near_limit in H. apply orb_false_iff in H as [H1 H2].
  destruct lit_eps as (FE & VE).
  destruct (fadd_ok _ _ F1 FE) as (Fa & Va). { big. }
  destruct (fsub_ok _ _ F2 FE) as (Fb & Vb). { big. }
  destruct (isnan v) eqn:N; [now left|right]. assert (Fv : finite v = true) by (exact (outer v _ _ N Fa Fb H1 H2)).
  split; [exact Fv|]. apply fltb_false in H1; try assumption. apply fltb_false in H2; try assumption.
  rewrite Va in H1. rewrite Vb in H2. split.
  - apply Rle_trans with (2 := H1). rewrite <- (rnd_val (qMin j)) at 1. apply rnd_le. lra.
  - apply Rle_trans with (1 := H2). rewrite <- (rnd_val (qMax j)) at 2. apply rnd_le. lra.
Qed.
Lemma limits_numbers : forall js q, Forall sane js -> checkJointLimits js q = true -> numbers in_range js q.
Proof.
  induction js as [|j js IH]; intros q S C i k v Hi Hv; [destruct i; discriminate|].
  destruct q as [|x q]; [destruct i; discriminate|]. cbn in C. inversion S as [|? ? S1 S2]; subst. destruct (near_limit j x) eqn:E; [discriminate|].
  destruct i as [|i]; cbn in Hi, Hv; [|now apply (IH q S2 C i)]. injection Hi as <-. injection Hv as <-. now apply near_limit_false.
Qed.

Lemma too_fast_false : forall j v, sane j -> too_fast j v = false -> isnan v = true \/ in_speed j v.
Proof.
  intros j v (_ & _ & F1 & F2 & _ & _ & Z) H. unfold too_fast in H. destruct (isnan v) eqn:N; [now left|right].
  destruct (feqb (qdotMin j) fzero) eqn:E.
  - apply feqb_val in E; [|assumption|reflexivity]. change (val fzero) with 0 in E.
    assert (Fa : finite (fabs v) = true). { destruct v as [?|?| |? ? ? ?]; try reflexivity; try discriminate N. exfalso. destruct (qdotMax j) as [?|?| |[] ? ? ?]; try discriminate F2; discriminate H. }
    rewrite fabs_finite in Fa. apply fltb_false in H; [|assumption|now rewrite fabs_finite]. rewrite fabs_val in H. apply Rabs_le_inv in H.
    repeat split; try assumption; try lra.
  - apply orb_false_iff in H as [H1 H2]. assert (Fv : finite v = true) by (exact (outer v _ _ N F1 F2 H1 H2)).
    apply fltb_false in H1; try assumption. apply fltb_false in H2; try assumption. repeat split; try assumption; try lra.
Qed.
Lemma speeds_numbers : forall js q, Forall sane js -> checkJointVelocities js q = true -> numbers in_speed js q.
Proof.
  induction js as [|j js IH]; intros q S C i k v Hi Hv; [destruct i; discriminate|].
  destruct q as [|x q]; [destruct i; discriminate|]. cbn in C. inversion S as [|? ? S1 S2]; subst. destruct (too_fast j x) eqn:E; [discriminate|].
  destruct i as [|i]; cbn in Hi, Hv; [|now apply (IH q S2 C i)]. injection Hi as <-. injection Hv as <-. now apply too_fast_false.
Qed.

(** ** the longest duration *)
Lemma fmax_pos : forall a b, fleb fzero a = true -> fleb fzero (fmax a b) = true.
Proof.
  intros a b H. unfold fmax. destruct (fltb a b) eqn:E; [|exact H].
  destruct (finite a) eqn:Fa, (finite b) eqn:Fb.
  - apply fleb_val in H; [|reflexivity|assumption]. apply fltb_val in E; try assumption. apply fleb_val; [reflexivity|assumption|]. lra.
  - destruct b as [?|[]| |? ? ? ?]; try discriminate Fb; try reflexivity; exfalso; destruct a as [?|?| |[] ? ? ?]; try discriminate Fa; discriminate E.
  - exfalso. destruct a as [?|[]| |? ? ? ?]; try discriminate Fa; try discriminate H. destruct b as [?|?| |[] ? ? ?]; try discriminate Fb; discriminate E.
  - destruct b as [?|[]| |? ? ? ?]; try discriminate Fb; try reflexivity; exfalso; destruct a as [?|[]| |? ? ? ?]; try discriminate Fa; discriminate E.
Qed.
Lemma maxDuration_pos : forall ts, fleb fzero (maxDuration ts) = true.
Proof.
  intro ts. unfold maxDuration. assert (H : fleb fzero fzero = true) by reflexivity. revert H. generalize fzero at 2 4 as a.
  induction ts as [|t ts IH]; intros a H; [exact H|]. cbn. apply IH. now apply fmax_pos.
Qed.

(** ** the loop of the fail-fast check *)
Section Scan.
  Variable invKin : list f64 -> list f64 -> option (list f64).
  Variable js : list joint.
  Variable ts : list trajectory.
  Variables step d : f64.
  Hypothesis SJ : Forall sane js.
  Hypothesis Fs : finite step = true.
  Hypothesis Fd : finite d = true.
  Hypothesis Bs : / 3000 <= val step <= 1000.
  Hypothesis Bd : val d <= 1000000000.

  Lemma tick : forall i, finite i = true -> 0 <= val i <= val d ->
    finite (fadd i step) = true /\ val i + val step / 2 <= val (fadd i step) <= val i + val step + (val d + val step) / 2 ^ 52 /\ (val i + val step <= val d -> val (fadd i step) <= val d).
  Proof.
    intros i Fi Bi. destruct (fadd_ok i step Fi Fs) as (F & V). { big. }
    split; [exact F|]. pose proof (rnd_err (val i + val step)) as R. rewrite (Rabs_pos_eq (val i + val step)) in R by lra. apply Rabs_le_inv in R. rewrite <- V in R.
    assert (T : tiny <= u * / 3000). { pose proof tiny_small. unfold u. lra. }
    rewrite two52. unfold u in *. split; [lra|].
    intro L. rewrite V, <- (rnd_val d). now apply rnd_le.
  Qed.

  Lemma scan_samples : forall n i q0, finite i = true -> 0 <= val i <= val d -> scan invKin js ts n step d i q0 = Some true ->
    exists l, solved invKin (pose_of ts) q0 l /\ within js q0 l /\ (exists q, nth_error l 0 = Some (i, q)) /\
      (forall k t q t' q', nth_error l k = Some (t, q) -> nth_error l (S k) = Some (t', q') ->
         val t <= val t' <= val t + val step + (val d + val step) / 2 ^ 52) /\
      (forall t q, nth_error l (Nat.pred (length l)) = Some (t, q) -> val t <= val d < val t + val step).
  Proof.
    induction n as [|n IH]; intros i q0 Fi Bi H; [discriminate|]. cbn [scan] in H.
    assert (L : fleb i d = true) by (apply fleb_val; [assumption|assumption|lra]). rewrite L in H.
    destruct (invKin (pose_of ts i) q0) as [q|] eqn:E; [|discriminate].
    destruct (checkJointLimits js q) eqn:C1; [|discriminate]. destruct (checkJointVelocities js (differences q q0)) eqn:C2; [|discriminate]. cbn [negb orb] in H.
    destruct (tick i Fi Bi) as (F' & B' & B''). destruct (fleb (fadd i step) d) eqn:M.
    - apply fleb_val in M as M'; [|assumption|assumption]. destruct (IH (fadd i step) q F' ltac:(lra) H) as (l & S1 & W1 & (q1 & N1) & G1 & E1).
      exists ((i, q) :: l). split; [|split; [|split; [|split]]].
      + intros k t x K. destruct k as [|k]; [injection K as <- <-; now exists q0|]. cbn [nth_error] in K. apply (S1 k t x K).
      + intros k t x b K K'. destruct k as [|k].
        * injection K as <- <-. injection K' as <-. split; [now apply limits_numbers|now apply speeds_numbers].
        * exact (W1 k t x b K K').
      + now exists q.
      + intros k t x t' x' K K'. destruct k as [|k]; [|exact (G1 k t x t' x' K K')]. injection K as <- <-. change (nth_error l 0 = Some (t', x')) in K'. rewrite N1 in K'. injection K' as <- <-. lra.
      + intros t x K. destruct l as [|p l]; [discriminate|]. cbn in K. apply (E1 t x). exact K.
    - exists [(i, q)]. split; [|split; [|split; [|split]]].
      + intros k t x K. destruct k as [|[|k]]; try discriminate. injection K as <- <-. now exists q0.
      + intros k t x b K K'. destruct k as [|[|k]]; try discriminate. injection K as <- <-. injection K' as <-. split; [now apply limits_numbers|now apply speeds_numbers].
      + now exists q.
      + intros k t x t' x' K K'. destruct k as [|[|k]]; discriminate.
      + intros t x K. cbn in K. injection K as <- <-. apply fleb_false in M; try assumption. split; [lra|].
        destruct (Rlt_or_le (val d) (val i + val step)) as [Y|Y]; [exact Y|]. specialize (B'' Y). lra.
  Qed.

  Lemma scan_ends : forall n i q, finite i = true -> 0 <= val i -> val i <= 1000010000 -> val d < val i + INR n * (val step / 2) -> scan invKin js ts (S n) step d i q <> None.
  Proof.
    induction n as [|n IH]; intros i q Fi Bi Ci H.
    - cbn [INR] in H. cbn [scan]. destruct (fleb i d) eqn:L; [|discriminate]. apply fleb_val in L; try assumption. lra.
    - change (scan invKin js ts (S (S n)) step d i q <> None). cbn [scan]. destruct (fleb i d) eqn:L; [|discriminate]. apply fleb_val in L; try assumption.
      destruct (invKin (pose_of ts i) q) as [q'|]; [|discriminate]. destruct (_ || _); [discriminate|].
      destruct (tick i Fi (conj Bi L)) as (F' & B' & _). specialize (IH (fadd i step) q' F'). cbn [scan] in IH. apply IH.
      + lra.
      + rewrite two52 in B'. lra.
      + rewrite S_INR in H. lra.
  Qed.
End Scan.

Lemma fail_fast_samples : forall invKin js ts ms fuel q0, Forall sane js -> (0 < ms <= 1000000)%Z ->
  finite (maxDuration ts) = true -> val (maxDuration ts) <= 1000000000 ->
  doFailFastChecks invKin js ts fuel ms q0 = Some true ->
  exists l, solved invKin (pose_of ts) q0 l /\ within js q0 l /\ spread (val (timestep ms)) (val (maxDuration ts)) l.
Proof.
  intros invKin js ts ms fuel q0 S M Fd Bd H. destruct (timestep_ok ms M) as (Fs & Bs). pose proof (maxDuration_pos ts) as P.
  apply fleb_val in P; [|reflexivity|assumption]. change (val fzero) with 0 in P.
  unfold doFailFastChecks in H. destruct ts as [|t ts]; [discriminate|].
  destruct (scan_samples invKin js (t :: ts) _ _ S Fs Fd Bs Bd fuel fzero q0 eq_refl (conj (Rle_refl 0) P) H) as (l & A & B & (q & C) & D & E).
  exists l. split; [exact A|]. split; [exact B|]. split; [now exists fzero, q|]. split; [exact D|exact E].
Qed.

Lemma unbounded : forall x, exists n, x < INR n.
Proof.
  intro x. exists (Z.to_nat (up (Rabs x))). destruct (archimed (Rabs x)) as (A & _). pose proof (Rabs_pos x). pose proof (Rle_abs x).
  rewrite INR_IZR_INZ, Z2Nat.id; [lra|]. apply le_IZR. lra.
Qed.
Lemma fail_fast_ends : forall invKin js ts ms q0, (0 < ms <= 1000000)%Z ->
  finite (maxDuration ts) = true -> val (maxDuration ts) <= 1000000000 ->
  exists fuel, doFailFastChecks invKin js ts fuel ms q0 <> None.
Proof.
  intros invKin js ts ms q0 M Fd Bd. destruct (timestep_ok ms M) as (Fs & Bs). pose proof (maxDuration_pos ts) as P.
  apply fleb_val in P; [|reflexivity|assumption]. change (val fzero) with 0 in P.
  unfold doFailFastChecks. destruct ts as [|t ts]; [exists 0%nat; discriminate|].
  destruct (unbounded (6000 * val (maxDuration (t :: ts)))) as (n & N). exists (S n).
  apply (scan_ends invKin js (t :: ts) _ _ Fs Fd Bs Bd n fzero q0 eq_refl); change (val fzero) with 0; [lra|lra|].
  assert (0 <= INR n) by apply pos_INR. nra.
Qed.

(** ** twist *)
Lemma zero_speed : forall j, sane j -> in_speed j fzero.
Proof. intros j (_ & _ & _ & _ & _ & _ & Z). split; [reflexivity|]. change (val fzero) with 0. lra. Qed.
Lemma twist_sent : forall diffInvKin js enc xdot, Forall sane js -> numbers in_speed js (twist diffInvKin js enc xdot).
Proof.
  intros f js enc xdot S. assert (Z : numbers in_speed js (map (fun _ => fzero) js)).
  { intros i j v Hi Hv. right. rewrite nth_error_map, Hi in Hv. cbn in Hv. injection Hv as <-. apply zero_speed. rewrite Forall_forall in S. apply S. eapply nth_error_In; eassumption. }
  unfold twist. destruct enc as [q|]; [|exact Z]. destruct (f q xdot) as [w|]; [|exact Z]. destruct (checkJointLimitsMoving js q w); [|exact Z].
  destruct (checkJointVelocities js w) eqn:C; [|exact Z]. cbn. now apply speeds_numbers.
Qed.

Lemma sum_nan : forall l s, s = fnan \/ In fnan (map snd l) -> fold_left (fun s p => fadd s (fmul (fst p) (snd p))) l s = fnan.
Proof.
  induction l as [|[a b] l IH]; intros s [E|E]; cbn in *; try contradiction; [exact E| |].
  - apply IH. left. subst. apply fadd_nan_l.
  - apply IH. destruct E as [->|E]; [left|now right]. rewrite fmul_nan_r. apply fadd_nan_r.
Qed.
Lemma matrix_nan : forall m x, Forall (fun row => length row = length x) m -> In fnan x -> matrix_times m x = map (fun _ => fnan) m.
Proof.
  intros m x L I. unfold matrix_times. apply map_ext_in. intros row R. rewrite Forall_forall in L. specialize (L row R).
  unfold row_times. apply sum_nan. right. clear R. revert row L. induction x as [|a x IH]; intros row L; [contradiction|].
  destruct row as [|b row]; [discriminate|]. cbn. destruct I as [->|I]; [now left|right]. apply IH; [exact I|]. now injection L.
Qed.
Lemma too_fast_nan : forall j, too_fast j fnan = false.
Proof. intro j. unfold too_fast. change (fabs fnan) with fnan. now rewrite fltb_nan_l, !fltb_nan_r, Tauto.if_same. Qed.
Lemma velocities_nan : forall js {A} (m : list A), checkJointVelocities js (map (fun _ => fnan) m) = true.
Proof. induction js as [|j js IH]; intros A [|a m]; try reflexivity. cbn. rewrite too_fast_nan. apply IH. Qed.
Lemma limits_ok_moving : forall js q w, checkJointLimits js q = true -> checkJointLimitsMoving js q w = true.
Proof.
  induction js as [|j js IH]; intros q w H; [reflexivity|]. destruct q as [|v q]; [reflexivity|]. destruct w as [|x w]; [reflexivity|]. cbn in *.
  destruct (near_limit j v); [discriminate|]. cbn. now apply IH.
Qed.
Lemma twist_nan : forall pinv js q xdot, Forall (fun row => length row = length xdot) (pinv q) -> checkJointLimits js q = true -> In fnan xdot ->
  twist (fun q x => Some (matrix_times (pinv q) x)) js (Some q) xdot = map (fun _ => fnan) (pinv q).
Proof.
  intros pinv js q xdot L C I. unfold twist. rewrite (matrix_nan _ _ L I). now rewrite (limits_ok_moving _ _ _ C), velocities_nan.
Qed.
