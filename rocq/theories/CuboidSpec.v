(** What the properties of the search of the reachable box say. *)
From Coq Require Import Reals.
From Verif Require Import Kdl Cuboid.
Open Scope R_scope.

Definition box := (axis * axis * axis)%type.
Definition along (a : axis) (t : R) : Prop := lo a <= t <= hi a.
Definition in_box (b : box) (x y z : R) : Prop := along (fst (fst b)) x /\ along (snd (fst b)) y /\ along (snd b) z.
(** positions that are a number of steps from the lower end *)
Definition sampled (step : R) (a : axis) (t : R) : Prop := exists n : nat, t = lo a + INR n * step /\ t <= hi a.
Definition sample (step : R) (b : box) (x y z : R) : Prop := sampled step (fst (fst b)) x /\ sampled step (snd (fst b)) y /\ sampled step (snd b) z.
(** one box inside another, its ends at samples of it *)
Definition part_of (step : R) (a b : axis) : Prop := sampled step b (lo a) /\ sampled step b (hi a) /\ lo a <= hi a.
Definition inside (step : R) (a b : box) : Prop :=
  part_of step (fst (fst a)) (fst (fst b)) /\ part_of step (snd (fst a)) (snd (fst b)) /\ part_of step (snd a) (snd b).
Definition all_reachable (step : R) (reach : R -> R -> R -> bool) (b : box) : Prop := forall x y z, sample step b x y z -> reach x y z = true.
(** how many samples a box has *)
Definition size (step : R) (a : axis) : R := (hi a - lo a) / step + 1.
Definition sizes (step : R) (b : box) : R := size step (fst (fst b)) * size step (snd (fst b)) * size step (snd b).
(** the box begins strictly before the position, and ends strictly before the end of the outer box, on each axis *)
Definition around (b out : box) (x y z : R) : Prop :=
  (lo (fst (fst b)) < x <= hi (fst (fst b)) /\ hi (fst (fst b)) < hi (fst (fst out))) /\
  (lo (snd (fst b)) < y <= hi (snd (fst b)) /\ hi (snd (fst b)) < hi (snd (fst out))) /\
  (lo (snd b) < z <= hi (snd b) /\ hi (snd b) < hi (snd out)).
