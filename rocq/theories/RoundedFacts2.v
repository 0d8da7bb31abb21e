From Coq Require Import List ZArith Reals Lia Lra Psatz Bool.
From Flocq Require Import Core IEEE754.BinarySingleNaN.
From Verif Require Import F64 F64Facts Rounded RoundedSpec RoundedFacts.
Import ListNotations.
Open Scope R_scope.

Lemma normal : forall x, / 1000000000000000000000000000000 <= x -> Rabs (rnd x - x) <= u * x.
Proof.
  intros x H. rewrite <- (Rabs_pos_eq x) at 3 by lra. apply rnd_rel. rewrite Rabs_pos_eq by lra. apply Rle_trans with (2 := H).
  apply Rle_trans with (bpow radix2 (-120)); [apply bpow_le; lia|]. cbn. apply Rinv_le; lra.
Qed.

Lemma div_pos : forall a b, 0 <= a -> 0 < b -> 0 <= a / b.
Proof. intros a b A B. apply Rmult_le_pos; [exact A|]. left. now apply Rinv_0_lt_compat. Qed.

Definition dist_ok (r d : f64) : Prop := ref_speed r /\ finite d = true /\ val d <= 2000001 /\ (val d = 0 \/ / 10000000000 <= val d).

Lemma distance_ok : forall r x y, ref_speed r -> angle x -> angle y -> apart x y ->
  dist_ok r (distance r x y) /\ (val r <= 0 -> distance r x y = fzero) /\
  (0 < val r -> Rabs (val (distance r x y) - Rabs (val y - val x)) <= u * Rabs (val y - val x)).
Proof.
  intros r x y RS (Fx & Bx) (Fy & By) AP. destruct RS as (Fr & Br). unfold distance. destruct (fleb r fzero) eqn:E.
  - apply fleb_val in E; [|assumption|reflexivity]. change (val fzero) with 0 in E. split; [|split; [reflexivity|lra]].
    split; [split; assumption|]. split; [reflexivity|]. change (val fzero) with 0. lra.
  - apply fleb_false in E; [|assumption|reflexivity]. change (val fzero) with 0 in E.
    destruct (fsub_ok y x Fy Fx) as (Fd & Vd). { big. }
    assert (B : Rabs (val y - val x) <= 2000000). { apply Rabs_le_inv in Bx. apply Rabs_le_inv in By. apply Rabs_le. lra. }
    rewrite fabs_val, Vd, rnd_abs. pose proof (Rabs_pos (val y - val x)).
    assert (R : Rabs (rnd (Rabs (val y - val x)) - Rabs (val y - val x)) <= u * Rabs (val y - val x)).
    { destruct AP as [AP|AP]; [|apply normal; lra]. rewrite AP, Rminus_eq_0, Rabs_R0, rnd_0, Rminus_0_r, Rabs_R0. lra. }
    split; [|split; [lra|intros _; exact R]].
    split; [split; assumption|]. split; [now rewrite fabs_finite|]. rewrite fabs_val, Vd, rnd_abs. pose proof R as R'. apply Rabs_le_inv in R. unfold u in R. split; [lra|].
    destruct AP as [AP|AP]; [left; now rewrite AP, Rminus_eq_0, Rabs_R0, rnd_0|right; lra].
Qed.

Lemma time_ok : forall r d, dist_ok r d -> 0 < val r ->
  finite (fdiv d r) = true /\ val (fdiv d r) <= 3000000000000 /\ (val d = 0 -> val (fdiv d r) = 0) /\
  (val d <> 0 -> / 100000000000000000 <= val (fdiv d r) /\ val d <= (1 + 2 * u) * (val (fdiv d r) * val r)).
Proof.
  intros r d ((Fr & Br) & Fd & Bd & Cd) P. destruct Br as [Br|Br]; [lra|].
  assert (D0 : 0 <= val d) by lra. assert (Q : 0 <= val d / val r <= 2000001 * 1000000).
  { split; [apply div_pos; lra|]. apply Rmult_le_reg_r with (val r); [lra|]. unfold Rdiv. rewrite Rmult_assoc, Rinv_l by lra. nra. }
  destruct (fdiv_ok d r Fd ltac:(lra)) as (F & V). { big. }
  split; [exact F|]. rewrite V. pose proof (rnd_err (val d / val r)) as R. rewrite (Rabs_pos_eq (val d / val r)) in R by lra. apply Rabs_le_inv in R. pose proof tiny_small.
  split; [unfold u in R; lra|]. split; [intros ->; unfold Rdiv; rewrite Rmult_0_l; apply rnd_0|]. intro N. destruct Cd as [Cd|Cd]; [contradiction|].
  assert (L : / 10000000000000000 <= val d / val r).
  { apply Rmult_le_reg_r with (val r); [lra|]. unfold Rdiv. rewrite Rmult_assoc, Rinv_l by lra. nra. }
  pose proof (normal (val d / val r) ltac:(lra)) as R2. apply Rabs_le_inv in R2. unfold u in *. split; [lra|].
  assert (E : val d = val d / val r * val r) by (field; lra). rewrite E at 1. set (z := val d / val r) in *. set (w := rnd z) in *. nra.
Qed.

Lemma longest_ok : forall refs ds m, Forall2 dist_ok refs ds -> finite m = true -> 0 <= val m <= 3000000000000 ->
  let T := longest refs ds m in
  finite T = true /\ val m <= val T <= 3000000000000 /\
  (forall i r d, nth_error refs i = Some r -> nth_error ds i = Some d -> 0 < val r -> val (fdiv d r) <= val T) /\
  (T = m \/ exists i r d, nth_error refs i = Some r /\ nth_error ds i = Some d /\ 0 < val r /\ T = fdiv d r /\ val m < val T).
Proof.
  intros refs ds m F. revert m. induction F as [|r d refs ds G F IH]; intros m Fm Bm; cbn [longest].
  - split; [exact Fm|]. split; [lra|]. split; [intros [|i]; discriminate|now left].
  - pose proof G as ((Fr & _) & _). destruct (fleb r fzero) eqn:E.
    + apply fleb_val in E; [|assumption|reflexivity]. change (val fzero) with 0 in E. destruct (IH m Fm Bm) as (A & B & C & D). split; [exact A|]. split; [exact B|]. split.
      * intros [|i] r' d' Hr Hd P; [injection Hr as <-; lra|exact (C i r' d' Hr Hd P)].
      * destruct D as [D|(i & r' & d' & D)]; [now left|right]. now exists (S i), r', d'.
    + apply fleb_false in E; [|assumption|reflexivity]. change (val fzero) with 0 in E. destruct (time_ok r d G E) as (Ft & Bt & Zt & Nt).
      destruct (fltb m (fdiv d r)) eqn:L.
      * apply fltb_val in L; try assumption. destruct (IH (fdiv d r) Ft ltac:(lra)) as (A & B & C & D). split; [exact A|]. split; [lra|]. split.
        -- intros [|i] r' d' Hr Hd P; [injection Hr as <-; injection Hd as <-; lra|exact (C i r' d' Hr Hd P)].
        -- right. destruct D as [D|(i & r' & d' & D1 & D2 & D3 & D4 & D5)]; [exists 0%nat, r, d; rewrite D; now repeat split|]. exists (S i), r', d'. repeat split; try assumption. lra.
      * apply fltb_false in L; try assumption. destruct (IH m Fm Bm) as (A & B & C & D). split; [exact A|]. split; [lra|]. split.
        -- intros [|i] r' d' Hr Hd P; [injection Hr as <-; injection Hd as <-; lra|exact (C i r' d' Hr Hd P)].
        -- destruct D as [D|(i & r' & d' & D)]; [now left|right]. now exists (S i), r', d'.
Qed.

Lemma distances_nth : forall refs q qd i r x y, nth_error refs i = Some r -> nth_error q i = Some x -> nth_error qd i = Some y ->
  nth_error (distances refs q qd) i = Some (distance r x y).
Proof.
  induction refs as [|r0 refs IH]; intros q qd i r x y A B C; [destruct i; discriminate|]. destruct q as [|x0 q]; [destruct i; discriminate|]. destruct qd as [|y0 qd]; [destruct i; discriminate|].
  destruct i as [|i]; cbn in *; [congruence|now apply IH].
Qed.
Lemma distances_forall : forall refs q qd, length q = length refs -> length qd = length refs -> joint_ok refs q qd -> Forall2 dist_ok refs (distances refs q qd).
Proof.
  induction refs as [|r refs IH]; intros [|x q] [|y qd] L1 L2 J; try discriminate; constructor.
  - destruct (J 0%nat r x y eq_refl eq_refl eq_refl) as (A & B & C & D). now apply distance_ok.
  - injection L1 as L1. injection L2 as L2. apply IH; try assumption. intros i r' x' y' H1 H2 H3. now apply (J (S i)).
Qed.

Lemma speeds_ok : forall refs q qd, length q = length refs -> length qd = length refs -> joint_ok refs q qd ->
  let moves := fst (computeIsocronousSpeeds refs q qd) in
  let speeds := snd (computeIsocronousSpeeds refs q qd) in
  (moves = true <-> exists i r x y, nth_error refs i = Some r /\ nth_error q i = Some x /\ nth_error qd i = Some y /\ 0 < val r /\ val x <> val y) /\
  exists T, 0 <= T /\ forall i r x y, nth_error refs i = Some r -> nth_error q i = Some x -> nth_error qd i = Some y ->
    exists s, nth_error speeds i = Some s /\ finite s = true /\ 0 <= val s /\ (val r <= 0 -> val s = 0) /\
      (0 < val r -> val s <= val r * (1 + / 2 ^ 51) /\ Rabs (val s * T - Rabs (val y - val x)) <= Rabs (val y - val x) * / 2 ^ 51).
Proof.
  intros refs q qd L1 L2 J. pose proof (distances_forall _ _ _ L1 L2 J) as FD.
  assert (Z0 : 0 <= val fzero <= 3000000000000) by (change (val fzero) with 0; lra).
  destruct (longest_ok _ _ fzero FD eq_refl Z0) as (FT & BT & C & D).
  unfold computeIsocronousSpeeds. cbn [fst snd]. set (T := longest refs (distances refs q qd) fzero) in *. change (val fzero) with 0 in *.
  assert (U : 2 ^ 51 = 2251799813685248) by lra. rewrite U.
  destruct (feqb T fzero) eqn:E.
  - apply feqb_val in E; [|exact FT|reflexivity]. change (val fzero) with 0 in E.
    assert (NM : forall i r x y, nth_error refs i = Some r -> nth_error q i = Some x -> nth_error qd i = Some y -> 0 < val r -> val x = val y).
    { intros i r x y Hr Hx Hy P. destruct (J i r x y Hr Hx Hy) as (J1 & J2 & J3 & J4). destruct (distance_ok r x y J1 J2 J3 J4) as (DO & _ & DV). specialize (DV P).
      specialize (C i r _ Hr (distances_nth _ _ _ _ _ _ _ Hr Hx Hy) P). destruct (time_ok _ _ DO P) as (_ & _ & _ & N).
      destruct (Req_dec (val (distance r x y)) 0) as [Z|Z]; [|specialize (N Z); lra]. rewrite Z, Rminus_0_l, Rabs_Ropp, Rabs_Rabsolu in DV.
      destruct J4 as [J4|J4]; [exact J4|]. unfold u in DV. lra. }
    split; [split; [discriminate|]|].
    + intros (i & r & x & y & H1 & H2 & H3 & H4 & H5). exfalso. now apply H5, (NM i r x y).
    + exists 0. split; [lra|]. intros i r x y Hr Hx Hy. exists fzero. split; [rewrite nth_error_map, (distances_nth _ _ _ _ _ _ _ Hr Hx Hy); reflexivity|].
      split; [reflexivity|]. change (val fzero) with 0. split; [lra|]. split; [reflexivity|]. intro P. rewrite (NM i r x y Hr Hx Hy P), Rminus_eq_0, Rmult_0_l, Rabs_R0, Rminus_0_r, Rabs_R0. lra.
  - destruct D as [D|(i0 & r0 & d0 & Hr0 & Hd0 & P0 & E0 & L0)]; [exfalso; rewrite D in E; discriminate E|].
    assert (G0 : dist_ok r0 d0).
    { clear -FD Hr0 Hd0. revert i0 Hr0 Hd0. induction FD; intros [|i] H1 H2; try discriminate; cbn in *; [congruence|now apply (IHFD i)]. }
    assert (T0 : / 100000000000000000 <= val T).
    { destruct (time_ok _ _ G0 P0) as (_ & _ & Z & N). rewrite E0 in *. destruct (Req_dec (val d0) 0) as [Q|Q]; [rewrite (Z Q) in L0; lra|now apply N]. }
    split.
    + split; [intros _|reflexivity].
      assert (I : (i0 < length refs)%nat) by (apply nth_error_Some; congruence).
      destruct (nth_error q i0) as [x|] eqn:Hx; [|apply nth_error_None in Hx; lia]. destruct (nth_error qd i0) as [y|] eqn:Hy; [|apply nth_error_None in Hy; lia].
      exists i0, r0, x, y. repeat split; try assumption. intro XY. rewrite (distances_nth _ _ _ _ _ _ _ Hr0 Hx Hy) in Hd0. injection Hd0 as <-.
      destruct (J i0 r0 x y Hr0 Hx Hy) as (J1 & J2 & J3 & J4). destruct (distance_ok r0 x y J1 J2 J3 J4) as (DO & _ & DV). specialize (DV P0). rewrite XY, Rminus_eq_0, Rabs_R0, Rmult_0_r, Rminus_0_r in DV.
      assert (val (distance r0 x y) = 0). { apply Rabs_le_inv in DV. lra. } destruct (time_ok _ _ DO P0) as (_ & _ & Z & _). rewrite E0, (Z H) in L0. lra.
    + exists (val T). split; [lra|]. intros i r x y Hr Hx Hy. destruct (J i r x y Hr Hx Hy) as (J1 & J2 & J3 & J4). destruct (distance_ok r x y J1 J2 J3 J4) as (DO & DZ & DV).
      pose proof (distances_nth _ _ _ _ _ _ _ Hr Hx Hy) as Hd. exists (fdiv (distance r x y) T). split; [now rewrite nth_error_map, Hd|].
      set (d := distance r x y) in *. destruct DO as (_ & Fd & Bd & Cd). assert (D0 : 0 <= val d) by lra.
      assert (Q : 0 <= val d / val T <= 2000001 * 100000000000000000).
      { split; [apply div_pos; lra|]. apply Rmult_le_reg_r with (val T); [lra|]. unfold Rdiv. rewrite Rmult_assoc, Rinv_l by lra. nra. }
      destruct (fdiv_ok d T Fd ltac:(lra)) as (F & V). { big. } split; [exact F|]. rewrite V. split; [now apply rnd_pos|]. split.
      { intro N. rewrite (DZ N). change (val fzero) with 0. unfold Rdiv. rewrite Rmult_0_l. apply rnd_0. }
      intro P. specialize (DV P). set (g := Rabs (val y - val x)) in *. assert (G : 0 <= g) by apply Rabs_pos.
      destruct Cd as [Cd|Cd].
      { rewrite Cd. unfold Rdiv. rewrite Rmult_0_l, rnd_0, Rmult_0_l. rewrite Cd in DV. rewrite Rminus_0_l, Rabs_Ropp in *. rewrite (Rabs_pos_eq g G) in *. unfold u in DV. split; nra. }
      specialize (C i r d Hr Hd P). assert (DO : dist_ok r d) by (repeat split; try assumption; try apply J1; tauto). destruct (time_ok r d DO P) as (_ & _ & _ & N). destruct (N ltac:(lra)) as (N1 & N2).
      assert (L : / 1000000000000000000000000 <= val d / val T).
      { apply Rmult_le_reg_r with (val T); [lra|]. unfold Rdiv. rewrite Rmult_assoc, Rinv_l by lra. nra. }
      pose proof (normal (val d / val T) ltac:(lra)) as R. apply Rabs_le_inv in R. apply Rabs_le_inv in DV.
      assert (ED : val d = val d / val T * val T) by (field; lra). set (z := val d / val T) in *. set (w := rnd z) in *. set (t := val (fdiv d r)) in *.
      assert (ZR : z <= (1 + 2 * u) * val r).
      { apply Rmult_le_reg_r with (val T); [lra|]. rewrite <- ED. apply Rle_trans with (1 := N2). unfold u. assert (t * val r <= val T * val r) by (apply Rmult_le_compat_r; lra). nra. }
      unfold u in *. split; [nra|]. apply Rabs_le. rewrite ED in DV. assert (WT : Rabs (w * val T - z * val T) <= / 9007199254740992 * (z * val T)).
      { apply Rabs_le. split; nra. } apply Rabs_le_inv in WT. lra.
Qed.
