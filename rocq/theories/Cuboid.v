(** Model of scripts/python/find-reachable-cuboid.py: the largest box of reachable positions around an initial pose.

    The solver and the limits of the joints are the environment: [reach x y z] says whether a configuration is found
    for this position, starting from the initial joint pose, and is within the limits (62-67, 117-118, 147-150).
    Simplified: numbers are reals; the solver answers the same question always the same way; options are given as
    numbers; the bounds are tests [between]; the checks of the options (42-56), the progress and the
    prompts are left out. *)
From Coq Require Import Reals ZArith List Bool.
From Verif Require Import Kdl.
Import ListNotations.
Open Scope R_scope.
Local Notation S := Datatypes.S.

(** Python's int of a number: towards zero *)
Definition py_int (x : R) : Z := if Rleb 0 x then Int_part x else (- Int_part (- x))%Z.

(** scripts/python/find-reachable-cuboid.py 109-122: one step after another in one direction, as long as the position is between the bounds and reachable;
    the last one that was.  [None]: not within [fuel] steps. *)
Fixpoint explore (fuel : nat) (fine : R -> bool) (diff x : R) : option R :=
  match fuel with
  | O => None
  | S f => let x' := x + diff in if fine x' then explore f fine diff x' else Some (x' - diff)
  end.

(** scripts/python/find-reachable-cuboid.py 171-194: find_largest_segment.  The inner loop, from [z0] on, over the positions [zs] *)
Fixpoint scan_segment (v : nat -> bool) (iz z0 : nat) (zs : list nat) (scalar : bool) (best : (nat * nat) * nat) : (nat * nat) * nat :=
  match zs with
  | [] => best
  | z :: zs' =>
      let scalar' := scalar && v z in
      if Nat.ltb z iz then scan_segment v iz z0 zs' scalar' best
      else if negb scalar' then best
      else scan_segment v iz z0 zs' scalar' (if Nat.ltb (snd best) (z - z0 + 1) then ((z0, z), z - z0 + 1)%nat else best)
  end.
(** the outer loop; [default]: the third range of the largest box so far, a global variable *)
Definition find_segment (nz iz : nat) (default : nat * nat) (v : nat -> bool) : nat * nat :=
  fst (fold_left (fun best z0 => scan_segment v iz z0 (seq z0 (nz - z0)) true best) (seq 0 iz) (default, 1%nat)).

Definition extent (r : nat * nat) : nat := (snd r - fst r + 1)%nat.
(** scripts/python/find-reachable-cuboid.py 196-218: find_largest_area *)
Definition rect := ((nat * nat) * (nat * nat))%type.
Definition area (r : rect) : nat := (extent (fst r) * extent (snd r))%nat.
Fixpoint scan_area (nz iy iz : nat) (dz : nat * nat) (a : nat -> nat -> bool) (y0 : nat) (ys : list nat) (line : nat -> bool) (best : rect * nat) : rect * nat :=
  match ys with
  | [] => best
  | y :: ys' =>
      let line' := fun z => line z && a y z in
      if Nat.ltb y iy then scan_area nz iy iz dz a y0 ys' line' best
      else
        let r := ((y0, y), find_segment nz iz dz line') in
        scan_area nz iy iz dz a y0 ys' line' (if Nat.ltb (snd best) (area r) then (r, area r) else best)
  end.
Definition find_area (ny nz iy iz : nat) (default : rect) (a : nat -> nat -> bool) : rect :=
  fst (fold_left (fun best y0 => scan_area nz iy iz (snd default) a y0 (seq y0 (ny - y0)) (fun _ => true) best) (seq 0 iy) (default, 1%nat)).

(** scripts/python/find-reachable-cuboid.py 220-238: the largest box *)
Definition cuboid := ((nat * nat) * rect)%type.
Definition volume (c : cuboid) : nat := (extent (fst c) * area (snd c))%nat.
Fixpoint scan_volume (ny nz ix iy iz : nat) (g : nat -> nat -> nat -> bool) (x0 : nat) (xs : list nat) (slice : nat -> nat -> bool) (best : cuboid * nat) : cuboid * nat :=
  match xs with
  | [] => best
  | x :: xs' =>
      let slice' := fun y z => slice y z && g x y z in
      if Nat.ltb x ix then scan_volume ny nz ix iy iz g x0 xs' slice' best
      else
        let c := ((x0, x), find_area ny nz iy iz (snd (fst best)) slice') in
        scan_volume ny nz ix iy iz g x0 xs' slice' (if Nat.ltb (snd best) (volume c) then (c, volume c) else best)
  end.
(** 166-167: at first, the initial position *)
Definition find_volume (nx ny nz ix iy iz : nat) (g : nat -> nat -> nat -> bool) : cuboid :=
  fst (fold_left (fun best x0 => scan_volume ny nz ix iy iz g x0 (seq x0 (nx - x0)) (fun _ _ => true) best) (seq 0 ix)
       (((ix, ix), ((iy, iy), (iz, iz))), 1%nat)).

(** the whole script: outer box (104-122), numbers of positions (126-129), indices of the initial position (161),
    all positions solved (132-151), and the corners of the box found (242) *)
Record axis := Axis { lo : R; hi : R }.
Definition explored (fuel : nat) (between line : R -> bool) (step x : R) : option axis :=
  match explore fuel (fun t => between t && line t) (step * -1) x, explore fuel (fun t => between t && line t) (step * 1) x with
  | Some a, Some b => Some (Axis a b)
  | _, _ => None
  end.
Definition count (step : R) (a : axis) : nat := Z.to_nat (py_int ((hi a - lo a) / step)).
Definition index (step : R) (a : axis) (x : R) : nat := Z.to_nat (py_int ((x - lo a) / step)).
Definition position (step : R) (a : axis) (i : nat) : R := lo a + INR i * step.
Record found := Found { outer : axis * axis * axis; indices : cuboid; inner : axis * axis * axis }.
Definition find_cuboid (fuel : nat) (betweenX betweenY betweenZ : R -> bool) (reach : R -> R -> R -> bool) (step x y z : R) : option found :=
  match explored fuel betweenX (fun t => reach t y z) step x, explored fuel betweenY (fun t => reach x t z) step y, explored fuel betweenZ (fun t => reach x y t) step z with
  | Some ax, Some ay, Some az =>
      let g i j k := reach (position step ax i) (position step ay j) (position step az k) in
      let c := find_volume (count step ax) (count step ay) (count step az) (index step ax x) (index step ay y) (index step az z) g in
      let corners a r := Axis (position step a (fst r)) (position step a (snd r)) in
      Some (Found (ax, ay, az) c (corners ax (fst c), corners ay (fst (snd c)), corners az (snd (snd c))))
  | _, _, _ => None
  end.
