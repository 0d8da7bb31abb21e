(** Proofs about the search of the reachable box, in terms of indices. *)
From Coq Require Import Reals ZArith List Bool Arith Lia.
From Verif Require Import Kdl Cuboid.
Import ListNotations.
Local Notation S := Datatypes.S.
Local Open Scope nat_scope.

(** whatever the positions, the box found contains the initial one and stays in range *)
Definition holds_ (i N : nat) (r : nat * nat) : Prop := fst r <= i <= snd r /\ snd r <= N.

Lemma segment_scan_in iz N nz v z0 : z0 <= iz -> nz <= S N -> forall n cur scalar best, cur + n <= nz -> holds_ iz N (fst best) ->
  holds_ iz N (fst (scan_segment v iz z0 (seq cur n) scalar best)).
Proof.
  intros Z K n. induction n as [|n IH]; intros cur scalar best L H; cbn [seq scan_segment]; [exact H|].
  destruct (Nat.ltb cur iz) eqn:E; [apply IH; [lia|exact H]|].
  destruct (negb (scalar && v cur)) eqn:F; [exact H|]. apply IH; [lia|].
  apply Nat.ltb_ge in E. destruct (Nat.ltb (snd best) (cur - z0 + 1)); [split; cbn; lia|exact H].
Qed.

Lemma segment_in iz N nz v d : nz <= S N -> holds_ iz N d -> holds_ iz N (find_segment nz iz d v).
Proof.
  intros K D. unfold find_segment.
  assert (G : forall l best, (forall z0, In z0 l -> z0 <= iz) -> holds_ iz N (fst best) ->
    holds_ iz N (fst (fold_left (fun best z0 => scan_segment v iz z0 (seq z0 (nz - z0)) true best) l best))).
  { induction l as [|z0 l IH]; intros best Q H; cbn [fold_left]; [exact H|].
    apply IH; [intros; apply Q; right; assumption|]. destruct (Nat.le_gt_cases z0 nz) as [L|L].
    - eapply segment_scan_in; eauto; [apply Q; left; reflexivity|lia].
    - replace (nz - z0) with 0 by lia. exact H. }
  apply G; [|exact D]. intros z0 I. apply in_seq in I. lia.
Qed.

Definition rect_in (iy iz Ny Nz : nat) (r : rect) : Prop := holds_ iy Ny (fst r) /\ holds_ iz Nz (snd r).

Lemma area_scan_in iy iz Ny Nz ny nz dz a y0 : y0 <= iy -> ny <= S Ny -> nz <= S Nz -> holds_ iz Nz dz -> forall n cur line best, cur + n <= ny -> rect_in iy iz Ny Nz (fst best) ->
  rect_in iy iz Ny Nz (fst (scan_area nz iy iz dz a y0 (seq cur n) line best)).
Proof.
  intros Z K K' D n. induction n as [|n IH]; intros cur line best L H; cbn [seq scan_area]; [exact H|].
  destruct (Nat.ltb cur iy) eqn:E; [apply IH; [lia|exact H]|]. apply IH; [lia|].
  apply Nat.ltb_ge in E. destruct (Nat.ltb (snd best) _); [|exact H]. split; [split; cbn; lia|]. cbn [snd fst]. apply segment_in; assumption.
Qed.

Lemma area_in iy iz Ny Nz ny nz d a : ny <= S Ny -> nz <= S Nz -> rect_in iy iz Ny Nz d -> rect_in iy iz Ny Nz (find_area ny nz iy iz d a).
Proof.
  intros K K' D. unfold find_area.
  assert (G : forall l best, (forall y0, In y0 l -> y0 <= iy) -> rect_in iy iz Ny Nz (fst best) ->
    rect_in iy iz Ny Nz (fst (fold_left (fun best y0 => scan_area nz iy iz (snd d) a y0 (seq y0 (ny - y0)) (fun _ => true) best) l best))).
  { induction l as [|y0 l IH]; intros best Q H; cbn [fold_left]; [exact H|].
    apply IH; [intros; apply Q; right; assumption|]. destruct (Nat.le_gt_cases y0 ny) as [L|L].
    - eapply area_scan_in; eauto; [apply Q; left; reflexivity|exact (proj2 D)|lia].
    - replace (ny - y0) with 0 by lia. exact H. }
  apply G; [|exact D]. intros z0 I. apply in_seq in I. lia.
Qed.

Definition cuboid_in (ix iy iz Nx Ny Nz : nat) (c : cuboid) : Prop := holds_ ix Nx (fst c) /\ rect_in iy iz Ny Nz (snd c).

Lemma volume_scan_in ix iy iz Nx Ny Nz nx ny nz g x0 : x0 <= ix -> nx <= S Nx -> ny <= S Ny -> nz <= S Nz -> forall n cur slice best, cur + n <= nx -> cuboid_in ix iy iz Nx Ny Nz (fst best) ->
  cuboid_in ix iy iz Nx Ny Nz (fst (scan_volume ny nz ix iy iz g x0 (seq cur n) slice best)).
Proof.
  intros Z K K' K2 n. induction n as [|n IH]; intros cur slice best L H; cbn [seq scan_volume]; [exact H|].
  destruct (Nat.ltb cur ix) eqn:E; [apply IH; [lia|exact H]|]. apply IH; [lia|].
  apply Nat.ltb_ge in E. destruct (Nat.ltb (snd best) _); [|exact H]. split; [split; cbn; lia|]. cbn [snd fst]. apply area_in; try assumption. exact (proj2 H).
Qed.

Lemma volume_in ix iy iz Nx Ny Nz nx ny nz g : nx <= S Nx -> ny <= S Ny -> nz <= S Nz -> ix <= Nx -> iy <= Ny -> iz <= Nz ->
  cuboid_in ix iy iz Nx Ny Nz (find_volume nx ny nz ix iy iz g).
Proof.
  intros K K' K2 I J L. unfold find_volume.
  assert (G : forall l best, (forall x0, In x0 l -> x0 <= ix) -> cuboid_in ix iy iz Nx Ny Nz (fst best) ->
    cuboid_in ix iy iz Nx Ny Nz (fst (fold_left (fun best x0 => scan_volume ny nz ix iy iz g x0 (seq x0 (nx - x0)) (fun _ _ => true) best) l best))).
  { induction l as [|x0 l IH]; intros best Q H; cbn [fold_left]; [exact H|].
    apply IH; [intros; apply Q; right; assumption|]. destruct (Nat.le_gt_cases x0 nx) as [M|M].
    - eapply volume_scan_in; eauto; [apply Q; left; reflexivity|lia].
    - replace (nx - x0) with 0 by lia. exact H. }
  apply G; [intros z0 P; apply in_seq in P; lia|]. repeat split; cbn; lia.
Qed.

(** the largest one, when a segment is found each time *)
Definition full (v : nat -> bool) (a b : nat) : Prop := forall z, a <= z <= b -> v z = true.
Definition good_segment (nz iz : nat) (v : nat -> bool) (r : nat * nat) : Prop := fst r < iz <= snd r /\ snd r < nz /\ full v (fst r) (snd r).

Lemma segment_scan nz iz v z0 : z0 < iz -> forall n cur scalar best, cur + n <= nz -> z0 <= cur ->
  (scalar = true <-> (forall z, z0 <= z < cur -> v z = true)) ->
  let r := scan_segment v iz z0 (seq cur n) scalar best in
  snd best <= snd r /\ (r = best \/ (good_segment nz iz v (fst r) /\ snd r = extent (fst r))) /\
  (forall z, iz <= z -> cur <= z < cur + n -> full v z0 z -> z - z0 + 1 <= snd r).
Proof.
  intros Z n. induction n as [|n IH]; intros cur scalar best L C Sc; cbn [seq scan_segment].
  - repeat split; [lia|left; reflexivity|intros; lia].
  - assert (Sc' : scalar && v cur = true <-> (forall z, z0 <= z < S cur -> v z = true)).
    { rewrite andb_true_iff, Sc. split.
      - intros [A B] z Hz. destruct (Nat.eq_dec z cur) as [->|E]; [exact B|apply A; lia].
      - intros A. split; [intros; apply A; lia|apply A; lia]. }
    destruct (Nat.ltb cur iz) eqn:E.
    + apply Nat.ltb_lt in E. destruct (IH (S cur) (scalar && v cur) best ltac:(lia) ltac:(lia) Sc') as (A & B & D).
      repeat split; [exact A|exact B|]. intros z Hz Hc Hf. apply D; [exact Hz|lia|exact Hf].
    + apply Nat.ltb_ge in E. destruct (scalar && v cur) eqn:F; cbn [negb].
      * assert (Q := proj1 Sc' eq_refl).
        set (b2 := if Nat.ltb (snd best) (cur - z0 + 1) then ((z0, cur), (cur - z0 + 1)%nat) else best).
        destruct (IH (S cur) true b2 ltac:(lia) ltac:(lia) Sc') as (A & B & D).
        assert (X : snd best <= snd b2 /\ cur - z0 + 1 <= snd b2).
        { unfold b2. destruct (Nat.ltb (snd best) (cur - z0 + 1)) eqn:G; [apply Nat.ltb_lt in G; cbn; lia|apply Nat.ltb_ge in G; lia]. }
        repeat split; [lia| |].
        -- destruct B as [B|B]; [|right; exact B]. rewrite B. unfold b2. destruct (Nat.ltb (snd best) (cur - z0 + 1)); [right|left; reflexivity].
           cbn [fst snd]. split; [|unfold extent; cbn; reflexivity]. split; [cbn; lia|]. split; [cbn; lia|]. intros z Hz. apply Q. cbn in Hz. lia.
        -- intros z Hz Hc Hf. destruct (Nat.eq_dec z cur) as [->|N]; [lia|apply D; [exact Hz|lia|exact Hf]].
      * repeat split; [lia|left; reflexivity|]. intros z Hz Hc Hf. exfalso. enough (false = true) by discriminate. apply Sc'. intros w Hw. apply Hf. lia.
Qed.

Lemma segment_found nz iz v d : 0 < iz < nz -> v (iz - 1) = true -> v iz = true ->
  let r := find_segment nz iz d v in good_segment nz iz v r /\ (forall z0 z, z0 < iz <= z -> z < nz -> full v z0 z -> z - z0 + 1 <= extent r).
Proof.
  intros I V1 V2. unfold find_segment.
  assert (G : forall l best, (forall z0, In z0 l -> z0 < iz) ->
    let r := fold_left (fun best z0 => scan_segment v iz z0 (seq z0 (nz - z0)) true best) l best in
    snd best <= snd r /\ (r = best \/ (good_segment nz iz v (fst r) /\ snd r = extent (fst r))) /\
    (forall z0 z, In z0 l -> iz <= z < nz -> full v z0 z -> z - z0 + 1 <= snd r)).
  { induction l as [|z0 l IH]; intros best Q; cbn [fold_left].
    - repeat split; [lia|left; reflexivity|intros ? ? []].
    - assert (Hz0 := Q z0 (or_introl eq_refl)).
      destruct (segment_scan nz iz v z0 Hz0 (nz - z0) z0 true best ltac:(lia) ltac:(lia)) as (A & B & D); [split; [intros; lia|reflexivity]|].
      set (b2 := scan_segment v iz z0 (seq z0 (nz - z0)) true best) in *. destruct (IH b2 (fun w Hw => Q w (or_intror Hw))) as (A2 & B2 & D2).
      repeat split; [lia| |].
      + destruct B2 as [B2|B2]; [rewrite B2; exact B|right; exact B2].
      + intros w z [<-|Hw] Hz Hf; [|apply D2; assumption]. eapply Nat.le_trans; [apply (D z); [lia|lia|exact Hf]|exact A2]. }
  specialize (G (seq 0 iz) (d, 1) ltac:(intros z0 P; apply in_seq in P; lia)). cbv zeta in G.
  set (r := fold_left _ _ _) in *. destruct G as (A & B & D).
  assert (T : 2 <= snd r).
  { eapply Nat.le_trans; [|apply (D (iz - 1) iz); [apply in_seq; lia|lia|]]; [lia|]. intros z Hz. assert (z = iz - 1 \/ z = iz) as [->| ->] by lia; assumption. }
  destruct B as [B|[B C]]; [rewrite B in T; cbn in T; lia|]. split; [exact B|].
  intros z0 z Hz Hn Hf. rewrite <- C. apply D; [apply in_seq; lia|lia|exact Hf].
Qed.

Definition good_rect (ny nz iy iz : nat) (a : nat -> nat -> bool) (r : rect) : Prop :=
  fst (fst r) < iy <= snd (fst r) /\ snd (fst r) < ny /\ good_segment nz iz (fun _ => true) (snd r) /\
  (forall y z, fst (fst r) <= y <= snd (fst r) -> fst (snd r) <= z <= snd (snd r) -> a y z = true).
Definition full2 (a : nat -> nat -> bool) (y0 y z0 z : nat) : Prop := forall u w, y0 <= u <= y -> z0 <= w <= z -> a u w = true.

Lemma area_scan ny nz iy iz dz a y0 : 0 < iz < nz -> y0 < iy -> (forall y, y < ny -> a y (iz - 1) = true /\ a y iz = true) ->
  forall n cur line best, cur + n <= ny -> y0 <= cur ->
  (forall z, line z = true <-> (forall y, y0 <= y < cur -> a y z = true)) ->
  let r := scan_area nz iy iz dz a y0 (seq cur n) line best in
  snd best <= snd r /\ (r = best \/ (good_rect ny nz iy iz a (fst r) /\ snd r = area (fst r))) /\
  (forall y z0 z, iy <= y -> cur <= y < cur + n -> z0 < iz <= z -> z < nz -> full2 a y0 y z0 z -> (y - y0 + 1) * (z - z0 + 1) <= snd r).
Proof.
  intros I Z V n. induction n as [|n IH]; intros cur line best L C Sc; cbn [seq scan_area].
  - repeat split; [lia|left; reflexivity|intros; lia].
  - set (line' := fun z => line z && a cur z).
    assert (Sc' : forall z, line' z = true <-> (forall y, y0 <= y < S cur -> a y z = true)).
    { intro z. unfold line'. rewrite andb_true_iff, Sc. split.
      - intros [A B] y Hz. destruct (Nat.eq_dec y cur) as [->|E]; [exact B|apply A; lia].
      - intros A. split; [intros; apply A; lia|apply A; lia]. }
    destruct (Nat.ltb cur iy) eqn:E.
    + apply Nat.ltb_lt in E. destruct (IH (S cur) line' best ltac:(lia) ltac:(lia) Sc') as (A & B & D).
      repeat split; [exact A|exact B|]. intros y z0 z Hy Hc. apply D; [exact Hy|lia].
    + apply Nat.ltb_ge in E.
      assert (SF := segment_found nz iz line' dz I). destruct SF as [G M]; [apply Sc'; intros y Hy; apply (V y); lia|apply Sc'; intros y Hy; apply (V y); lia|].
      set (sg := find_segment nz iz dz line') in *. set (r := ((y0, cur), sg) : rect).
      set (b2 := if Nat.ltb (snd best) (area r) then (r, area r) else best).
      destruct (IH (S cur) line' b2 ltac:(lia) ltac:(lia) Sc') as (A & B & D).
      assert (X : snd best <= snd b2 /\ area r <= snd b2).
      { unfold b2. destruct (Nat.ltb (snd best) (area r)) eqn:F; [apply Nat.ltb_lt in F; cbn [snd]; lia|apply Nat.ltb_ge in F; lia]. }
      cbv zeta. change (snd best <= snd (scan_area nz iy iz dz a y0 (seq (S cur) n) line' b2) /\
        (scan_area nz iy iz dz a y0 (seq (S cur) n) line' b2 = best \/ (good_rect ny nz iy iz a (fst (scan_area nz iy iz dz a y0 (seq (S cur) n) line' b2)) /\ snd (scan_area nz iy iz dz a y0 (seq (S cur) n) line' b2) = area (fst (scan_area nz iy iz dz a y0 (seq (S cur) n) line' b2)))) /\
        (forall y z0 z, iy <= y -> cur <= y < cur + S n -> z0 < iz <= z -> z < nz -> full2 a y0 y z0 z -> (y - y0 + 1) * (z - z0 + 1) <= snd (scan_area nz iy iz dz a y0 (seq (S cur) n) line' b2))).
      repeat split; [exact (Nat.le_trans _ _ _ (proj1 X) A)| |].
      * destruct B as [B|B]; [|right; exact B]. rewrite B. unfold b2. destruct (Nat.ltb (snd best) (area r)); [right|left; reflexivity].
        cbn [fst snd]. split; [|reflexivity]. destruct G as (G1 & G2 & G3). split; [cbn; lia|]. split; [cbn; lia|]. split; [split; [exact G1|split; [exact G2|intros ? ?; reflexivity]]|].
        cbn [fst snd r]. intros y z Hy Hz. apply (proj1 (Sc' z) (G3 z Hz)). lia.
      * intros y z0 z Hy Hc Hz Hn Hf. destruct (Nat.eq_dec y cur) as [->|N]; [|apply D; try assumption; lia].
        eapply Nat.le_trans; [|apply A]. eapply Nat.le_trans; [|apply X]. unfold area, r. cbn [fst snd]. unfold extent at 1. cbn [fst snd].
        apply Nat.mul_le_mono_l. apply M; [exact Hz|exact Hn|]. intros w Hw. apply Sc'. intros u Hu. apply Hf; [lia|exact Hw].
Qed.

Lemma area_found ny nz iy iz d a : 0 < iz < nz -> 0 < iy < ny -> (forall y, y < ny -> a y (iz - 1) = true /\ a y iz = true) ->
  let r := find_area ny nz iy iz d a in good_rect ny nz iy iz a r /\
  (forall y0 y z0 z, y0 < iy <= y -> y < ny -> z0 < iz <= z -> z < nz -> full2 a y0 y z0 z -> (y - y0 + 1) * (z - z0 + 1) <= area r).
Proof.
  intros I J V. unfold find_area.
  assert (G : forall l best, (forall y0, In y0 l -> y0 < iy) ->
    let r := fold_left (fun best y0 => scan_area nz iy iz (snd d) a y0 (seq y0 (ny - y0)) (fun _ => true) best) l best in
    snd best <= snd r /\ (r = best \/ (good_rect ny nz iy iz a (fst r) /\ snd r = area (fst r))) /\
    (forall y0 y z0 z, In y0 l -> iy <= y < ny -> z0 < iz <= z -> z < nz -> full2 a y0 y z0 z -> (y - y0 + 1) * (z - z0 + 1) <= snd r)).
  { induction l as [|y0 l IH]; intros best Q; cbn [fold_left].
    - repeat split; [lia|left; reflexivity|intros ? ? ? ? []].
    - assert (Hy0 := Q y0 (or_introl eq_refl)).
      destruct (area_scan ny nz iy iz (snd d) a y0 I Hy0 V (ny - y0) y0 (fun _ => true) best ltac:(lia) ltac:(lia)) as (A & B & D); [split; [intros; lia|reflexivity]|].
      set (b2 := scan_area nz iy iz (snd d) a y0 (seq y0 (ny - y0)) (fun _ => true) best) in *. destruct (IH b2 (fun w Hw => Q w (or_intror Hw))) as (A2 & B2 & D2).
      repeat split; [lia| |].
      + destruct B2 as [B2|B2]; [rewrite B2; exact B|right; exact B2].
      + intros w y z0 z [<-|Hw] Hy Hz Hn Hf; [|apply D2; assumption]. eapply Nat.le_trans; [apply (D y z0 z); try assumption; lia|exact A2]. }
  specialize (G (seq 0 iy) (d, 1) ltac:(intros z0 P; apply in_seq in P; lia)). cbv zeta in G.
  set (r := fold_left _ _ _) in *. destruct G as (A & B & D).
  assert (T : 2 <= snd r).
  { eapply Nat.le_trans; [|apply (D (iy - 1) iy (iz - 1) iz); [apply in_seq; lia|lia|lia|lia|]]; [nia|]. intros u w Hu Hw.
    assert (w = iz - 1 \/ w = iz) as [->| ->] by lia; apply V; lia. }
  destruct B as [B|[B C]]; [rewrite B in T; cbn in T; lia|]. split; [exact B|].
  intros y0 y z0 z Hy Hn Hz Hm Hf. rewrite <- C. apply D; try assumption; [apply in_seq; lia|lia].
Qed.

Definition full3 (g : nat -> nat -> nat -> bool) (x0 x y0 y z0 z : nat) : Prop := forall t u w, x0 <= t <= x -> y0 <= u <= y -> z0 <= w <= z -> g t u w = true.
Definition good_cuboid (nx ny nz ix iy iz : nat) (g : nat -> nat -> nat -> bool) (c : cuboid) : Prop :=
  fst (fst c) < ix <= snd (fst c) /\ snd (fst c) < nx /\ good_rect ny nz iy iz (fun _ _ => true) (snd c) /\
  full3 g (fst (fst c)) (snd (fst c)) (fst (fst (snd c))) (snd (fst (snd c))) (fst (snd (snd c))) (snd (snd (snd c))).

Lemma volume_scan nx ny nz ix iy iz g x0 : 0 < iz < nz -> 0 < iy < ny -> x0 < ix -> (forall x y, x < nx -> y < ny -> g x y (iz - 1) = true /\ g x y iz = true) ->
  forall n cur slice best, cur + n <= nx -> x0 <= cur ->
  (forall y z, slice y z = true <-> (forall x, x0 <= x < cur -> g x y z = true)) ->
  let r := scan_volume ny nz ix iy iz g x0 (seq cur n) slice best in
  snd best <= snd r /\ (r = best \/ (good_cuboid nx ny nz ix iy iz g (fst r) /\ snd r = volume (fst r))) /\
  (forall x y0 y z0 z, ix <= x -> cur <= x < cur + n -> y0 < iy <= y -> y < ny -> z0 < iz <= z -> z < nz -> full3 g x0 x y0 y z0 z ->
    (x - x0 + 1) * ((y - y0 + 1) * (z - z0 + 1)) <= snd r).
Proof.
  intros I J Z V n. induction n as [|n IH]; intros cur slice best L C Sc; cbn [seq scan_volume].
  - repeat split; [lia|left; reflexivity|intros; lia].
  - set (slice' := fun y z => slice y z && g cur y z).
    assert (Sc' : forall y z, slice' y z = true <-> (forall x, x0 <= x < S cur -> g x y z = true)).
    { intros y z. unfold slice'. rewrite andb_true_iff, Sc. split.
      - intros [A B] x Hz. destruct (Nat.eq_dec x cur) as [->|E]; [exact B|apply A; lia].
      - intros A. split; [intros; apply A; lia|apply A; lia]. }
    destruct (Nat.ltb cur ix) eqn:E.
    + apply Nat.ltb_lt in E. destruct (IH (S cur) slice' best ltac:(lia) ltac:(lia) Sc') as (A & B & D).
      repeat split; [exact A|exact B|]. intros x y0 y z0 z Hx Hc. apply D; [exact Hx|lia].
    + apply Nat.ltb_ge in E.
      assert (SF := area_found ny nz iy iz (snd (fst best)) slice' I J).
      destruct SF as [G M]; [intros y Hy; split; apply Sc'; intros x Hx; apply (V x y); lia|].
      set (rc := find_area ny nz iy iz (snd (fst best)) slice') in *. set (r := ((x0, cur), rc) : cuboid).
      set (b2 := if Nat.ltb (snd best) (volume r) then (r, volume r) else best).
      destruct (IH (S cur) slice' b2 ltac:(lia) ltac:(lia) Sc') as (A & B & D).
      assert (X : snd best <= snd b2 /\ volume r <= snd b2).
      { unfold b2. destruct (Nat.ltb (snd best) (volume r)) eqn:F; [apply Nat.ltb_lt in F; cbn [snd]; lia|apply Nat.ltb_ge in F; lia]. }
      cbv zeta. change (snd best <= snd (scan_volume ny nz ix iy iz g x0 (seq (S cur) n) slice' b2) /\
        (scan_volume ny nz ix iy iz g x0 (seq (S cur) n) slice' b2 = best \/ (good_cuboid nx ny nz ix iy iz g (fst (scan_volume ny nz ix iy iz g x0 (seq (S cur) n) slice' b2)) /\ snd (scan_volume ny nz ix iy iz g x0 (seq (S cur) n) slice' b2) = volume (fst (scan_volume ny nz ix iy iz g x0 (seq (S cur) n) slice' b2)))) /\
        (forall x y0 y z0 z, ix <= x -> cur <= x < cur + S n -> y0 < iy <= y -> y < ny -> z0 < iz <= z -> z < nz -> full3 g x0 x y0 y z0 z ->
          (x - x0 + 1) * ((y - y0 + 1) * (z - z0 + 1)) <= snd (scan_volume ny nz ix iy iz g x0 (seq (S cur) n) slice' b2))).
      repeat split; [exact (Nat.le_trans _ _ _ (proj1 X) A)| |].
      * destruct B as [B|B]; [|right; exact B]. rewrite B. unfold b2. destruct (Nat.ltb (snd best) (volume r)); [right|left; reflexivity].
        cbn [fst snd]. split; [|reflexivity]. destruct G as (G1 & G2 & G3 & G4). split; [cbn; lia|]. split; [cbn; lia|].
        split; [split; [exact G1|split; [exact G2|split; [exact G3|intros; reflexivity]]]|].
        cbn [fst snd r]. intros x y z Hx Hy Hz. apply (proj1 (Sc' y z) (G4 y z Hy Hz)). lia.
      * intros x y0 y z0 z Hx Hc Hy Hn Hz Hm Hf. destruct (Nat.eq_dec x cur) as [->|N]; [|apply D; try assumption; lia].
        eapply Nat.le_trans; [|apply A]. eapply Nat.le_trans; [|apply X]. unfold volume, r. cbn [fst snd]. unfold extent at 1. cbn [fst snd].
        apply Nat.mul_le_mono_l. apply M; try assumption. intros u w Hu Hw. apply Sc'. intros t Ht. apply Hf; [lia|exact Hu|exact Hw].
Qed.

Lemma volume_found nx ny nz ix iy iz g : 0 < iz < nz -> 0 < iy < ny -> 0 < ix < nx -> (forall x y, x < nx -> y < ny -> g x y (iz - 1) = true /\ g x y iz = true) ->
  let c := find_volume nx ny nz ix iy iz g in good_cuboid nx ny nz ix iy iz g c /\
  (forall x0 x y0 y z0 z, x0 < ix <= x -> x < nx -> y0 < iy <= y -> y < ny -> z0 < iz <= z -> z < nz -> full3 g x0 x y0 y z0 z ->
    (x - x0 + 1) * ((y - y0 + 1) * (z - z0 + 1)) <= volume c).
Proof.
  intros I J K V. unfold find_volume.
  assert (G : forall l best, (forall x0, In x0 l -> x0 < ix) ->
    let r := fold_left (fun best x0 => scan_volume ny nz ix iy iz g x0 (seq x0 (nx - x0)) (fun _ _ => true) best) l best in
    snd best <= snd r /\ (r = best \/ (good_cuboid nx ny nz ix iy iz g (fst r) /\ snd r = volume (fst r))) /\
    (forall x0 x y0 y z0 z, In x0 l -> ix <= x < nx -> y0 < iy <= y -> y < ny -> z0 < iz <= z -> z < nz -> full3 g x0 x y0 y z0 z ->
      (x - x0 + 1) * ((y - y0 + 1) * (z - z0 + 1)) <= snd r)).
  { induction l as [|x0 l IH]; intros best Q; cbn [fold_left].
    - repeat split; [lia|left; reflexivity|intros ? ? ? ? ? ? []].
    - assert (Hx0 := Q x0 (or_introl eq_refl)).
      destruct (volume_scan nx ny nz ix iy iz g x0 I J Hx0 V (nx - x0) x0 (fun _ _ => true) best ltac:(lia) ltac:(lia)) as (A & B & D); [split; [intros; lia|reflexivity]|].
      set (b2 := scan_volume ny nz ix iy iz g x0 (seq x0 (nx - x0)) (fun _ _ => true) best) in *. destruct (IH b2 (fun w Hw => Q w (or_intror Hw))) as (A2 & B2 & D2).
      repeat split; [lia| |].
      + destruct B2 as [B2|B2]; [rewrite B2; exact B|right; exact B2].
      + intros w x y0 y z0 z [<-|Hw] Hx Hy Hn Hz Hm Hf; [|apply D2; assumption]. eapply Nat.le_trans; [apply (D x y0 y z0 z); try assumption; lia|exact A2]. }
  specialize (G (seq 0 ix) ((ix, ix, ((iy, iy), (iz, iz))), 1) ltac:(intros z0 P; apply in_seq in P; lia)). cbv zeta in G.
  set (r := fold_left _ _ _) in *. destruct G as (A & B & D).
  assert (T : 2 <= snd r).
  { eapply Nat.le_trans; [|apply (D (ix - 1) ix (iy - 1) iy (iz - 1) iz); [apply in_seq; lia|lia|lia|lia|lia|lia|]]; [nia|]. intros t u w Ht Hu Hw.
    assert (w = iz - 1 \/ w = iz) as [->| ->] by lia; apply V; lia. }
  destruct B as [B|[B C]]; [rewrite B in T; cbn in T; lia|]. split; [exact B|].
  intros x0 x y0 y z0 z Hx Hn Hy Hm Hz Hk Hf. rewrite <- C. apply D; try assumption; [apply in_seq; lia|lia].
Qed.
