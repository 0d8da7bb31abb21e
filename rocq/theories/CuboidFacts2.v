(** Proofs about the search of the reachable box, in terms of positions. *)
From Coq Require Import Reals ZArith List Bool Arith Lia Lra.
From Verif Require Import Kdl Cuboid CuboidSpec CuboidFacts.
Import ListNotations.
Open Scope R_scope.
Local Notation S := Datatypes.S.

Lemma explore_steps fine d : forall fuel x r, explore fuel fine d x = Some r ->
  exists k : nat, r = x + INR k * d /\ (forall i : nat, (1 <= i <= k)%nat -> fine (x + INR i * d) = true) /\ fine (x + INR (S k) * d) = false.
Proof.
  induction fuel as [|fuel IH]; intros x r E; [discriminate|]. cbn [explore] in E. cbv zeta in E.
  destruct (fine (x + d)) eqn:F.
  - destruct (IH _ _ E) as (k & A & B & C). exists (S k). split; [rewrite A, S_INR; lra|]. split.
    + intros [|[|i]] I; [lia|cbn [INR]; rewrite Rmult_1_l; exact F|]. specialize (B (S i) ltac:(lia)).
      replace (x + INR (S (S i)) * d) with (x + d + INR (S i) * d); [exact B|rewrite (S_INR (S i)); lra].
    + rewrite <- C. f_equal. rewrite (S_INR (S k)). lra.
  - injection E as <-. exists 0%nat. split; [cbn [INR]; lra|]. split; [intros i I; lia|]. rewrite <- F. f_equal. cbn [INR]. lra.
Qed.

Lemma py_int_INR n : py_int (INR n) = Z.of_nat n.
Proof. unfold py_int, Rleb. destruct (Rle_dec 0 (INR n)) as [_|N]; [apply Int_part_INR|destruct N; apply pos_INR]. Qed.

(** what is found along one axis *)
Definition axis_found (step x : R) (a : axis) (k m : nat) : Prop :=
  lo a = x - INR k * step /\ hi a = x + INR m * step /\ count step a = (k + m)%nat /\ index step a x = k.

Lemma explored_found fuel between line step x a : 0 < step -> explored fuel between line step x = Some a ->
  exists k m, axis_found step x a k m /\
    (forall i : nat, (i <= k + m)%nat -> i <> k -> between (position step a i) = true /\ line (position step a i) = true) /\
    between (lo a - step) && line (lo a - step) = false /\ between (hi a + step) && line (hi a + step) = false.
Proof.
  intros P E. unfold explored in E. destruct (explore fuel _ (step * -1) x) eqn:E1; [|discriminate]. destruct (explore fuel _ (step * 1) x) eqn:E2; [|discriminate].
  injection E as <-. destruct (explore_steps _ _ _ _ _ E1) as (k & A1 & B1 & C1). destruct (explore_steps _ _ _ _ _ E2) as (m & A2 & B2 & C2).
  exists k, m. split; [|split].
  - unfold axis_found, count, index. cbn [lo hi]. split; [lra|]. split; [lra|].
    split.
    + replace ((r0 - r) / step) with (INR (k + m)); [rewrite py_int_INR; apply Nat2Z.id|]. rewrite plus_INR, A1, A2. field. lra.
    + replace ((x - r) / step) with (INR k); [rewrite py_int_INR; apply Nat2Z.id|]. rewrite A1. field. lra.
  - intros i I N. unfold position. cbn [lo]. apply andb_true_iff. destruct (Nat.le_gt_cases i k) as [L|L].
    + specialize (B1 (k - i)%nat ltac:(lia)). rewrite <- B1. rewrite A1, minus_INR by exact L.
      replace (x + INR k * (step * -1) + INR i * step) with (x + (INR k - INR i) * (step * -1)) by lra. reflexivity.
    + specialize (B2 (i - k)%nat ltac:(lia)). rewrite <- B2. rewrite A1, minus_INR by lia.
      replace (x + INR k * (step * -1) + INR i * step) with (x + (INR i - INR k) * (step * 1)) by lra. reflexivity.
  - cbn [lo hi]. rewrite S_INR in C1, C2. split.
    + rewrite <- C1, A1. replace (x + INR k * (step * -1) - step) with (x + (INR k + 1) * (step * -1)) by lra. reflexivity.
    + rewrite <- C2, A2. replace (x + INR m * (step * 1) + step) with (x + (INR m + 1) * (step * 1)) by lra. reflexivity.
Qed.

Lemma position_initial step x a k m : axis_found step x a k m -> position step a k = x.
Proof. intros (A & B & _). unfold position. lra. Qed.
Lemma position_last step x a k m : axis_found step x a k m -> position step a (k + m) = hi a.
Proof. intros (A & B & _). unfold position. rewrite plus_INR. lra. Qed.
Lemma position_mono step a i j : 0 < step -> (i <= j)%nat -> position step a i <= position step a j.
Proof. intros P L. unfold position. apply le_INR in L. nra. Qed.
Lemma position_strict step a i j : 0 < step -> (i < j)%nat -> position step a i < position step a j.
Proof. intros P L. unfold position. apply lt_INR in L. nra. Qed.
Lemma position_le step a i j : 0 < step -> position step a i <= position step a j -> (i <= j)%nat.
Proof. intros P L. destruct (Nat.le_gt_cases i j) as [H|H]; [exact H|]. apply (position_strict step a) in H; lra. Qed.
Lemma position_lt step a i j : 0 < step -> position step a i < position step a j -> (i < j)%nat.
Proof. intros P L. destruct (Nat.le_gt_cases j i) as [H|H]; [|exact H]. apply (position_mono step a) in H; lra. Qed.

(** the samples of the axis are the positions *)
Lemma sampled_position step x a k m t : 0 < step -> axis_found step x a k m -> (sampled step a t <-> exists i : nat, (i <= k + m)%nat /\ t = position step a i).
Proof.
  intros P F. split.
  - intros (n & A & B). exists n. split; [|exact A]. rewrite <- (position_last _ _ _ _ _ F) in B. rewrite A in B. exact (position_le _ _ _ _ P B).
  - intros (i & I & ->). exists i. split; [reflexivity|]. rewrite <- (position_last _ _ _ _ _ F). exact (position_mono _ _ _ _ P I).
Qed.
(** and those of a part of it *)
Lemma sampled_part step a i j t : 0 < step -> sampled step (Axis (position step a i) (position step a j)) t <-> exists n : nat, (i <= n <= j)%nat /\ t = position step a n.
Proof.
  intros P. split.
  - intros (n & A & B). cbn [lo hi] in A, B. exists (i + n)%nat. assert (E : t = position step a (i + n)) by (rewrite A; unfold position; rewrite plus_INR; lra).
    split; [|exact E]. rewrite E in B. split; [lia|exact (position_le _ _ _ _ P B)].
  - intros (n & I & ->). exists (n - i)%nat. cbn [lo hi]. split; [unfold position; rewrite minus_INR by lia; lra|apply position_mono; [exact P|lia]].
Qed.

Lemma part_holds step x a k m r : 0 < step -> axis_found step x a k m -> holds_ k (k + m) r ->
  part_of step (Axis (position step a (fst r)) (position step a (snd r))) a /\ along (Axis (position step a (fst r)) (position step a (snd r))) x.
Proof.
  intros P F [[H1 H2] H3]. split.
  - split; [|split]; cbn [lo hi]; [apply (sampled_position _ _ _ _ _ _ P F); exists (fst r); split; [lia|reflexivity]| |apply position_mono; [exact P|lia]].
    apply (sampled_position _ _ _ _ _ _ P F); exists (snd r); split; [lia|reflexivity].
  - assert (E := position_initial _ _ _ _ _ F). split; cbn [lo hi]; rewrite <- E; apply position_mono; assumption.
Qed.

Lemma find_cuboid_parts fuel bx by_ bz reach step x y z f : 0 < step -> find_cuboid fuel bx by_ bz reach step x y z = Some f ->
  exists ax ay az kx mx ky my kz mz, explored fuel bx (fun t => reach t y z) step x = Some ax /\ explored fuel by_ (fun t => reach x t z) step y = Some ay /\ explored fuel bz (fun t => reach x y t) step z = Some az /\
    axis_found step x ax kx mx /\ axis_found step y ay ky my /\ axis_found step z az kz mz /\
    let c := find_volume (kx + mx) (ky + my) (kz + mz) kx ky kz (fun i j k => reach (position step ax i) (position step ay j) (position step az k)) in
    let corners a r := Axis (position step a (fst r)) (position step a (snd r)) in
    f = Found (ax, ay, az) c (corners ax (fst c), corners ay (fst (snd c)), corners az (snd (snd c))).
Proof.
  intros P E. unfold find_cuboid in E.
  destruct (explored fuel bx _ step x) as [ax|] eqn:Ex; [|discriminate]. destruct (explored fuel by_ _ step y) as [ay|] eqn:Ey; [|discriminate].
  destruct (explored fuel bz _ step z) as [az|] eqn:Ez; [|discriminate]. injection E as <-.
  destruct (explored_found _ _ _ _ _ _ P Ex) as (kx & mx & X & _). destruct (explored_found _ _ _ _ _ _ P Ey) as (ky & my & Y & _). destruct (explored_found _ _ _ _ _ _ P Ez) as (kz & mz & Z & _).
  exists ax, ay, az, kx, mx, ky, my, kz, mz. do 6 (split; [assumption || reflexivity|]).
  destruct X as (_ & _ & -> & ->), Y as (_ & _ & -> & ->), Z as (_ & _ & -> & ->). reflexivity.
Qed.

Theorem box_contains fuel bx by_ bz reach step x y z f : 0 < step -> find_cuboid fuel bx by_ bz reach step x y z = Some f ->
  in_box (inner f) x y z /\ inside step (inner f) (outer f).
Proof.
  intros P E. destruct (find_cuboid_parts _ _ _ _ _ _ _ _ _ _ P E) as (ax & ay & az & kx & mx & ky & my & kz & mz & _ & _ & _ & X & Y & Z & ->).
  cbv zeta. cbn [inner outer]. set (c := find_volume _ _ _ _ _ _ _).
  destruct (volume_in kx ky kz (kx + mx) (ky + my) (kz + mz) (kx + mx) (ky + my) (kz + mz) (fun i j k => reach (position step ax i) (position step ay j) (position step az k))) as (A & B & C); try lia.
  fold c in A, B, C. destruct (part_holds _ _ _ _ _ _ P X A), (part_holds _ _ _ _ _ _ P Y B), (part_holds _ _ _ _ _ _ P Z C).
  split; split; [|split| |split]; assumption.
Qed.

(** the outer box: the steps along the axes through the initial position are reachable, and the next ones are not or are out of bounds *)
Theorem outer_lines fuel bx by_ bz reach step x y z f : 0 < step -> find_cuboid fuel bx by_ bz reach step x y z = Some f ->
  let a := fst (fst (outer f)) in let b := snd (fst (outer f)) in let c := snd (outer f) in
  (forall t, sampled step a t -> t <> x -> bx t = true /\ reach t y z = true) /\
  (forall t, sampled step b t -> t <> y -> by_ t = true /\ reach x t z = true) /\
  (forall t, sampled step c t -> t <> z -> bz t = true /\ reach x y t = true) /\
  (bx (lo a - step) && reach (lo a - step) y z = false /\ bx (hi a + step) && reach (hi a + step) y z = false) /\
  (by_ (lo b - step) && reach x (lo b - step) z = false /\ by_ (hi b + step) && reach x (hi b + step) z = false) /\
  (bz (lo c - step) && reach x y (lo c - step) = false /\ bz (hi c + step) && reach x y (hi c + step) = false).
Proof.
  intros P E. unfold find_cuboid in E.
  destruct (explored fuel bx _ step x) as [ax|] eqn:Ex; [|discriminate]. destruct (explored fuel by_ _ step y) as [ay|] eqn:Ey; [|discriminate].
  destruct (explored fuel bz _ step z) as [az|] eqn:Ez; [|discriminate]. injection E as <-. cbn [outer fst snd].
  destruct (explored_found _ _ _ _ _ _ P Ex) as (kx & mx & X & X1 & X2). destruct (explored_found _ _ _ _ _ _ P Ey) as (ky & my & Y & Y1 & Y2). destruct (explored_found _ _ _ _ _ _ P Ez) as (kz & mz & Z & Z1 & Z2).
  split; [|split; [|split; [|split; [|split]]]]; try assumption.
  - intros t T N. apply (sampled_position _ _ _ _ _ _ P X) in T. destruct T as (i & I & ->). apply X1; [exact I|]. intros ->. apply N, (position_initial _ _ _ _ _ X).
  - intros t T N. apply (sampled_position _ _ _ _ _ _ P Y) in T. destruct T as (i & I & ->). apply Y1; [exact I|]. intros ->. apply N, (position_initial _ _ _ _ _ Y).
  - intros t T N. apply (sampled_position _ _ _ _ _ _ P Z) in T. destruct T as (i & I & ->). apply Z1; [exact I|]. intros ->. apply N, (position_initial _ _ _ _ _ Z).
Qed.

(** a part that begins before the initial position and ends before the last one *)
Lemma part_indices step x a k m b : 0 < step -> axis_found step x a k m -> part_of step b a -> lo b < x <= hi b -> hi b < hi a ->
  exists i j : nat, (i < k <= j)%nat /\ (j < k + m)%nat /\ b = Axis (position step a i) (position step a j) /\ size step b = INR (j - i + 1).
Proof.
  intros P F (A & B & C) [D1 D2] E. apply (sampled_position _ _ _ _ _ _ P F) in A. apply (sampled_position _ _ _ _ _ _ P F) in B.
  destruct A as (i & I & A), B as (j & J & B). exists i, j. rewrite A in D1, C. rewrite B in C, D2, E. rewrite <- (position_initial _ _ _ _ _ F) in D1, D2. rewrite <- (position_last _ _ _ _ _ F) in E.
  apply position_lt in D1; [|exact P]. apply position_le in D2; [|exact P]. apply position_lt in E; [|exact P]. split; [lia|]. split; [lia|].
  split; [destruct b as [l h]; cbn [lo hi] in *; congruence|]. unfold size. rewrite A, B. unfold position. rewrite plus_INR, minus_INR by lia. cbn [INR]. field. lra.
Qed.

Lemma size_part step a i j : 0 < step -> (i <= j)%nat -> size step (Axis (position step a i) (position step a j)) = INR (j - i + 1).
Proof. intros P L. unfold size, position. cbn [lo hi]. rewrite plus_INR, minus_INR by lia. cbn [INR]. field. lra. Qed.

Theorem box_largest fuel bx by_ bz reach step x y z f : 0 < step -> find_cuboid fuel bx by_ bz reach step x y z = Some f ->
  let a := fst (fst (outer f)) in let b := snd (fst (outer f)) in let c := snd (outer f) in
  lo a < x < hi a -> lo b < y < hi b -> lo c < z < hi c ->
  (forall u v, sampled step a u -> u < hi a -> sampled step b v -> v < hi b -> reach u v z = true /\ reach u v (z - step) = true) ->
  all_reachable step reach (inner f) /\ around (inner f) (outer f) x y z /\
  (forall b', inside step b' (outer f) -> around b' (outer f) x y z -> all_reachable step reach b' -> sizes step b' <= sizes step (inner f)).
Proof.
  intros P E. destruct (find_cuboid_parts _ _ _ _ _ _ _ _ _ _ P E) as (ax & ay & az & kx & mx & ky & my & kz & mz & _ & _ & _ & X & Y & Z & ->).
  cbv zeta. cbn [inner outer fst snd]. intros Hx Hy Hz V.
  assert (Ix : (0 < kx < kx + mx)%nat /\ (0 < ky < ky + my)%nat /\ (0 < kz < kz + mz)%nat).
  { assert (Q : forall t a k m, axis_found step t a k m -> lo a < t < hi a -> (0 < k < k + m)%nat).
    { intros t a k m F [L1 L2]. destruct F as (F1 & F2 & _). assert (0 < INR k * step) by lra. assert (0 < INR m * step) by lra.
      assert (k <> 0%nat) by (intros ->; cbn [INR] in *; lra). assert (m <> 0%nat) by (intros ->; cbn [INR] in *; lra). lia. }
    split; [|split]; [exact (Q _ _ _ _ X Hx)|exact (Q _ _ _ _ Y Hy)|exact (Q _ _ _ _ Z Hz)]. }
  destruct Ix as (Ix & Iy & Iz).
  set (g := fun i j k => reach (position step ax i) (position step ay j) (position step az k)).
  destruct (volume_found (kx + mx) (ky + my) (kz + mz) kx ky kz g Iz Iy Ix) as [G M].
  { intros i j Hi Hj. unfold g.
    assert (Z0 := position_initial _ _ _ _ _ Z).
    assert (Z1 : position step az (kz - 1) = z - step) by (rewrite <- Z0; unfold position; rewrite minus_INR by lia; cbn [INR]; lra).
    rewrite Z0, Z1. destruct (V (position step ax i) (position step ay j)) as [V1 V2].
    - apply (sampled_position _ _ _ _ _ _ P X). exists i. split; [lia|reflexivity].
    - rewrite <- (position_last _ _ _ _ _ X). apply position_strict; assumption.
    - apply (sampled_position _ _ _ _ _ _ P Y). exists j. split; [lia|reflexivity].
    - rewrite <- (position_last _ _ _ _ _ Y). apply position_strict; assumption.
    - split; assumption. }
  set (c := find_volume _ _ _ _ _ _ _) in *. destruct c as [[x0 x1] [[y0 y1] [z0 z1]]].
  destruct G as (G1 & G2 & (G3 & G4 & (G5 & G6 & _) & _) & G7). cbn [fst snd] in *.
  split; [|split].
  - intros u v w (A & B & C). cbn [fst snd] in A, B, C. apply sampled_part in A; [|exact P]. apply sampled_part in B; [|exact P]. apply sampled_part in C; [|exact P].
    destruct A as (i & Hi & ->), B as (j & Hj & ->), C as (k & Hk & ->). apply (G7 i j k); assumption.
  - unfold around. cbn [fst snd lo hi]. rewrite <- (position_last _ _ _ _ _ X), <- (position_last _ _ _ _ _ Y), <- (position_last _ _ _ _ _ Z).
    rewrite <- (position_initial _ _ _ _ _ X), <- (position_initial _ _ _ _ _ Y), <- (position_initial _ _ _ _ _ Z).
    rewrite !(position_initial _ _ _ _ _ X), !(position_initial _ _ _ _ _ Y), !(position_initial _ _ _ _ _ Z).
    pose proof (position_initial _ _ _ _ _ X) as X0. pose proof (position_initial _ _ _ _ _ Y) as Y0. pose proof (position_initial _ _ _ _ _ Z) as Z0.
    assert (Q : forall t a k m i j, position step a k = t -> (i < k <= j)%nat -> (j < k + m)%nat -> (position step a i < t <= position step a j) /\ position step a j < position step a (k + m)).
    { intros t a k m i j <- H1 H2. split; [split; [apply position_strict; [exact P|lia]|apply position_mono; [exact P|lia]]|apply position_strict; [exact P|lia]]. }
    split; [|split]; apply Q; assumption.
  - intros b' (I1 & I2 & I3) (A1 & A2 & A3) AR. cbn [fst snd] in *.
    destruct (part_indices _ _ _ _ _ _ P X I1 (proj1 A1) (proj2 A1)) as (i0 & i1 & J1 & J2 & J3 & J4).
    destruct (part_indices _ _ _ _ _ _ P Y I2 (proj1 A2) (proj2 A2)) as (j0 & j1 & K1 & K2 & K3 & K4).
    destruct (part_indices _ _ _ _ _ _ P Z I3 (proj1 A3) (proj2 A3)) as (k0 & k1 & L1 & L2 & L3 & L4).
    unfold sizes. cbn [fst snd]. rewrite J4, K4, L4. rewrite !size_part by (exact P || lia). rewrite <- !mult_INR. apply le_INR.
    specialize (M i0 i1 j0 j1 k0 k1 J1 J2 K1 K2 L1 L2). unfold volume, area, extent in M. cbn [fst snd] in M. rewrite <- !Nat.mul_assoc. apply M.
    intros u v w Hu Hv Hw. apply AR. unfold sample. rewrite J3, K3, L3.
    split; [|split]; apply sampled_part; try exact P; [exists u|exists v|exists w]; split; (assumption || reflexivity).
Qed.
