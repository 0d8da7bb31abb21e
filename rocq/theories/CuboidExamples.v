(** Searches of the reachable box, worked out: steps of one, around the origin. *)
From Coq Require Import Reals ZArith List Bool Arith Lia Lra FunctionalExtensionality.
From Verif Require Import Kdl Cuboid CuboidSpec CuboidFacts CuboidFacts2.
Import ListNotations.
Open Scope R_scope.
Local Notation S := Datatypes.S.

Definition anywhere (_ : R) : bool := true.

Fixpoint exploreZ (fuel : nat) (l : Z -> bool) (d x : Z) : option Z :=
  match fuel with O => None | S f => if l (x + d)%Z then exploreZ f l d (x + d)%Z else Some x end.

Lemma explore_int fuel fine l d : (forall i, fine (IZR i) = l i) -> forall x, explore fuel fine (IZR d) (IZR x) = option_map IZR (exploreZ fuel l d x).
Proof.
  intros H. induction fuel as [|f IH]; intro x; [reflexivity|]. cbn [explore exploreZ]. cbv zeta. rewrite <- plus_IZR, H.
  destruct (l (x + d)%Z); [apply IH|]. cbn [option_map]. f_equal. rewrite plus_IZR. lra.
Qed.

Lemma explored_int fuel line l a b : (forall i, line (IZR i) = l i) -> exploreZ fuel l (-1) 0 = Some a -> exploreZ fuel l 1 0 = Some b ->
  explored fuel anywhere line 1 0 = Some (Axis (IZR a) (IZR b)).
Proof.
  intros H A B. unfold explored. replace (1 * -1) with (IZR (-1)) by lra. replace (1 * 1) with (IZR 1) by lra. change 0 with (IZR 0).
  rewrite !(explore_int fuel (fun t => anywhere t && line t) l) by (intro i; exact (H i)). rewrite A, B. reflexivity.
Qed.

Lemma py_int_IZR z : (0 <= z)%Z -> py_int (IZR z) = z.
Proof. intros H. rewrite <- (Z2Nat.id z H) at 1. rewrite <- INR_IZR_INZ, py_int_INR. apply Z2Nat.id, H. Qed.
Lemma count_int a b : (a <= b)%Z -> count 1 (Axis (IZR a) (IZR b)) = Z.to_nat (b - a).
Proof. intros H. unfold count. cbn [lo hi]. replace ((IZR b - IZR a) / 1) with (IZR (b - a)) by (rewrite minus_IZR; lra). rewrite py_int_IZR by lia. reflexivity. Qed.
Lemma index_int a b : (a <= 0)%Z -> index 1 (Axis (IZR a) (IZR b)) 0 = Z.to_nat (- a).
Proof. intros H. unfold index. cbn [lo hi]. replace ((0 - IZR a) / 1) with (IZR (- a)) by (rewrite opp_IZR; lra). rewrite py_int_IZR by lia. reflexivity. Qed.
Lemma position_int a b i : position 1 (Axis (IZR a) b) i = IZR (a + Z.of_nat i).
Proof. unfold position. cbn [lo]. rewrite plus_IZR, <- INR_IZR_INZ. lra. Qed.

Lemma find_int fuel reach r ax bx ay by_ az bz c : (forall i j k, reach (IZR i) (IZR j) (IZR k) = r i j k) ->
  exploreZ fuel (fun t => r t 0%Z 0%Z) (-1) 0 = Some ax -> exploreZ fuel (fun t => r t 0%Z 0%Z) 1 0 = Some bx ->
  exploreZ fuel (fun t => r 0%Z t 0%Z) (-1) 0 = Some ay -> exploreZ fuel (fun t => r 0%Z t 0%Z) 1 0 = Some by_ ->
  exploreZ fuel (fun t => r 0%Z 0%Z t) (-1) 0 = Some az -> exploreZ fuel (fun t => r 0%Z 0%Z t) 1 0 = Some bz ->
  (ax <= 0 <= bx)%Z -> (ay <= 0 <= by_)%Z -> (az <= 0 <= bz)%Z ->
  find_volume (Z.to_nat (bx - ax)) (Z.to_nat (by_ - ay)) (Z.to_nat (bz - az)) (Z.to_nat (- ax)) (Z.to_nat (- ay)) (Z.to_nat (- az))
    (fun i j k => r (ax + Z.of_nat i) (ay + Z.of_nat j) (az + Z.of_nat k))%Z = c ->
  find_cuboid fuel anywhere anywhere anywhere reach 1 0 0 0 =
  Some (Found (Axis (IZR ax) (IZR bx), Axis (IZR ay) (IZR by_), Axis (IZR az) (IZR bz)) c
    (let corner a r := Axis (IZR (a + Z.of_nat (fst r))) (IZR (a + Z.of_nat (snd r))) in (corner ax (fst c), corner ay (fst (snd c)), corner az (snd (snd c))))).
Proof.
  intros H X1 X2 Y1 Y2 Z1 Z2 LX LY LZ V. unfold find_cuboid.
  rewrite (explored_int _ _ (fun t => r t 0%Z 0%Z) ax bx) by (try assumption; intro; apply (H _ 0 0)%Z).
  rewrite (explored_int _ _ (fun t => r 0%Z t 0%Z) ay by_) by (try assumption; intro; apply (H 0%Z _ 0%Z)).
  rewrite (explored_int _ _ (fun t => r 0%Z 0%Z t) az bz) by (try assumption; intro; apply (H 0 0 _)%Z).
  rewrite !count_int, !index_int by lia. cbv zeta.
  replace (fun i j k => reach (position 1 (Axis (IZR ax) (IZR bx)) i) (position 1 (Axis (IZR ay) (IZR by_)) j) (position 1 (Axis (IZR az) (IZR bz)) k))
    with (fun i j k => r (ax + Z.of_nat i) (ay + Z.of_nat j) (az + Z.of_nat k))%Z.
  - rewrite V, !position_int. reflexivity.
  - extensionality i. extensionality j. extensionality k. rewrite !position_int. symmetry. apply H.
Qed.

Lemma Rleb_IZR a b : Rleb (IZR a) (IZR b) = (a <=? b)%Z.
Proof. unfold Rleb. destruct (Rle_dec (IZR a) (IZR b)) as [L|L]; symmetry; [apply Z.leb_le, le_IZR, L|apply Z.leb_gt]. apply Rnot_le_lt, lt_IZR in L. exact L. Qed.

(** the reachable positions are those at most one away, the sum of the three distances: an octahedron *)
Definition octahedron (x y z : R) : bool := Rleb (Rabs x + Rabs y + Rabs z) 1.
Lemma octahedron_int i j k : octahedron (IZR i) (IZR j) (IZR k) = (Z.abs i + Z.abs j + Z.abs k <=? 1)%Z.
Proof. unfold octahedron. rewrite !Rabs_Zabs, <- !plus_IZR. apply Rleb_IZR. Qed.
Definition octahedron_found : found := Found (Axis (-1) 1, Axis (-1) 1, Axis (-1) 1) ((0, 1), ((0, 1), (1, 1)))%nat (Axis (-1) 0, Axis (-1) 0, Axis 0 0).
Lemma octahedron_search : find_cuboid 9 anywhere anywhere anywhere octahedron 1 0 0 0 = Some octahedron_found.
Proof. exact (find_int 9 _ _ (-1) 1 (-1) 1 (-1) 1 ((0, 1), ((0, 1), (1, 1)))%nat octahedron_int eq_refl eq_refl eq_refl eq_refl eq_refl eq_refl ltac:(lia) ltac:(lia) ltac:(lia) eq_refl). Qed.

(** some of the positions of the box found are not reachable: the reachable region being convex, and the initial position reachable *)
Theorem box_unreachable : exists fuel bx by_ bz reach step x y z f, 0 < step /\ reach x y z = true /\
  (forall x1 y1 z1 x2 y2 z2 t, 0 <= t <= 1 -> reach x1 y1 z1 = true -> reach x2 y2 z2 = true -> reach ((1 - t) * x1 + t * x2) ((1 - t) * y1 + t * y2) ((1 - t) * z1 + t * z2) = true) /\
  find_cuboid fuel bx by_ bz reach step x y z = Some f /\ ~ all_reachable step reach (inner f).
Proof.
  exists 9%nat, anywhere, anywhere, anywhere, octahedron, 1, 0, 0, 0, octahedron_found. split; [lra|]. split; [apply (octahedron_int 0 0 0)|]. split.
  - intros x1 y1 z1 x2 y2 z2 t T A B. unfold octahedron, Rleb in *.
    destruct (Rle_dec (Rabs x1 + Rabs y1 + Rabs z1) 1) as [A'|]; [|discriminate]. destruct (Rle_dec (Rabs x2 + Rabs y2 + Rabs z2) 1) as [B'|]; [|discriminate].
    destruct (Rle_dec _ 1) as [|N]; [reflexivity|]. destruct N.
    assert (Q : forall u v, Rabs ((1 - t) * u + t * v) <= (1 - t) * Rabs u + t * Rabs v).
    { intros u v. eapply Rle_trans; [apply Rabs_triang|]. rewrite !Rabs_mult, (Rabs_right (1 - t)), (Rabs_right t) by lra. lra. }
    pose proof (Q x1 x2). pose proof (Q y1 y2). pose proof (Q z1 z2).
    assert ((1 - t) * (Rabs x1 + Rabs y1 + Rabs z1) <= (1 - t) * 1) by (apply Rmult_le_compat_l; lra).
    assert (t * (Rabs x2 + Rabs y2 + Rabs z2) <= t * 1) by (apply Rmult_le_compat_l; lra). lra.
  - split; [exact octahedron_search|]. intro A. specialize (A (-1) (-1) 0).
    assert (B : octahedron (-1) (-1) 0 = false) by apply (octahedron_int (-1) (-1) 0). rewrite B in A. discriminate A.
    unfold sample, sampled. cbn [octahedron_found inner fst snd lo hi].
    split; [|split]; exists 0%nat; cbn [INR]; lra.
Qed.

(** the reachable positions are those of a box *)
Definition block (a b : Z) (x y z : R) : bool :=
  (Rleb (IZR a) x && Rleb x (IZR b)) && (Rleb (IZR a) y && Rleb y (IZR b)) && (Rleb (IZR a) z && Rleb z (IZR b)).
Lemma block_int a b i j k : block a b (IZR i) (IZR j) (IZR k) = (((a <=? i) && (i <=? b)) && ((a <=? j) && (j <=? b)) && ((a <=? k) && (k <=? b)))%Z.
Proof. unfold block. rewrite !Rleb_IZR. reflexivity. Qed.
Lemma Rleb_le x y : Rleb x y = true <-> x <= y.
Proof. unfold Rleb. destruct (Rle_dec x y); split; (intro; congruence || reflexivity || assumption || contradiction). Qed.
Lemma block_in a b x y z : block a b x y z = true <-> IZR a <= x <= IZR b /\ IZR a <= y <= IZR b /\ IZR a <= z <= IZR b.
Proof. unfold block. rewrite !andb_true_iff, !Rleb_le. tauto. Qed.

(** from a corner of it, only that corner is found *)
Definition corner_found : found := Found (Axis 0 2, Axis 0 2, Axis 0 2) ((0, 0), ((0, 0), (0, 0)))%nat (Axis 0 0, Axis 0 0, Axis 0 0).
Lemma corner_search : find_cuboid 9 anywhere anywhere anywhere (block 0 2) 1 0 0 0 = Some corner_found.
Proof. exact (find_int 9 _ _ 0 2 0 2 0 2 ((0, 0), ((0, 0), (0, 0)))%nat (block_int 0 2) eq_refl eq_refl eq_refl eq_refl eq_refl eq_refl ltac:(lia) ltac:(lia) ltac:(lia) eq_refl). Qed.

Theorem box_small : exists fuel bx by_ bz reach step x y z f b, 0 < step /\ find_cuboid fuel bx by_ bz reach step x y z = Some f /\
  inside step b (outer f) /\ in_box b x y z /\ all_reachable step reach b /\ 27 * sizes step (inner f) <= sizes step b.
Proof.
  exists 9%nat, anywhere, anywhere, anywhere, (block 0 2), 1, 0, 0, 0, corner_found, (Axis 0 2, Axis 0 2, Axis 0 2).
  split; [lra|]. split; [exact corner_search|]. cbn [corner_found outer inner].
  split; [|split; [|split]].
  - assert (P : part_of 1 (Axis 0 2) (Axis 0 2)) by (split; [exists 0%nat; cbn [INR lo hi]; lra|split; [exists 2%nat; cbn [INR lo hi]; lra|cbn [lo hi]; lra]]). split; [|split]; exact P.
  - repeat split; cbn [fst snd lo hi]; lra.
  - intros x y z ((i & X & X') & (j & Y & Y') & (k & Z & Z')). cbn [fst snd lo hi] in *. apply block_in. pose proof (pos_INR i). pose proof (pos_INR j). pose proof (pos_INR k). lra.
  - unfold sizes, size. cbn [fst snd lo hi]. lra.
Qed.

(** from its middle, nearly all of it *)
Definition middle_found : found := Found (Axis (-2) 2, Axis (-2) 2, Axis (-2) 2) ((0, 3), ((0, 3), (0, 3)))%nat (Axis (-2) 1, Axis (-2) 1, Axis (-2) 1).
Lemma middle_search : find_cuboid 9 anywhere anywhere anywhere (block (-2) 2) 1 0 0 0 = Some middle_found.
Proof. exact (find_int 9 _ _ (-2) 2 (-2) 2 (-2) 2 ((0, 3), ((0, 3), (0, 3)))%nat (block_int (-2) 2) eq_refl eq_refl eq_refl eq_refl eq_refl eq_refl ltac:(lia) ltac:(lia) ltac:(lia) eq_refl). Qed.
Lemma middle_guard : (forall u v, sampled 1 (Axis (-2) 2) u -> u < 2 -> sampled 1 (Axis (-2) 2) v -> v < 2 -> block (-2) 2 u v 0 = true /\ block (-2) 2 u v (0 - 1) = true).
Proof. intros u v (i & X & X') _ (j & Y & Y') _. cbn [lo hi] in *. pose proof (pos_INR i). pose proof (pos_INR j). split; apply block_in; lra. Qed.
