(** Properties of the script that looks for the largest reachable box around a pose (C124-C125). *)
From Coq Require Import Reals Bool.
From Verif Require Import Kdl Cuboid CuboidSpec CuboidFacts2 CuboidExamples.
Open Scope R_scope.

(** C124: the box reported contains the initial position and is inside the outer box. *)
Theorem C124_contains : forall fuel bx by_ bz reach step x y z f, 0 < step -> find_cuboid fuel bx by_ bz reach step x y z = Some f ->
  in_box (inner f) x y z /\ inside step (inner f) (outer f).
Proof. exact box_contains. Qed.
Print Assumptions C124_contains.

(** C124: the outer box reaches, along the axes through the initial position, exactly as far as consecutive steps are reachable and within the bounds. *)
Theorem C124_outer : forall fuel bx by_ bz reach step x y z f, 0 < step -> find_cuboid fuel bx by_ bz reach step x y z = Some f ->
  let a := fst (fst (outer f)) in let b := snd (fst (outer f)) in let c := snd (outer f) in
  (forall t, sampled step a t -> t <> x -> bx t = true /\ reach t y z = true) /\
  (forall t, sampled step b t -> t <> y -> by_ t = true /\ reach x t z = true) /\
  (forall t, sampled step c t -> t <> z -> bz t = true /\ reach x y t = true) /\
  (bx (lo a - step) && reach (lo a - step) y z = false /\ bx (hi a + step) && reach (hi a + step) y z = false) /\
  (by_ (lo b - step) && reach x (lo b - step) z = false /\ by_ (hi b + step) && reach x (hi b + step) z = false) /\
  (bz (lo c - step) && reach x y (lo c - step) = false /\ bz (hi c + step) && reach x y (hi c + step) = false).
Proof. exact outer_lines. Qed.
Print Assumptions C124_outer.

Example C124_example : 0 < 1 /\ find_cuboid 9 anywhere anywhere anywhere octahedron 1 0 0 0 = Some octahedron_found.
Proof. exact (conj Rlt_0_1 octahedron_search). Qed.

(** C124: but not all the positions of the box reported are reachable, even if the reachable region is convex. *)
Theorem C124_reachable_refuted : exists fuel bx by_ bz reach step x y z f, 0 < step /\ reach x y z = true /\
  (forall x1 y1 z1 x2 y2 z2 t, 0 <= t <= 1 -> reach x1 y1 z1 = true -> reach x2 y2 z2 = true -> reach ((1 - t) * x1 + t * x2) ((1 - t) * y1 + t * y2) ((1 - t) * z1 + t * z2) = true) /\
  find_cuboid fuel bx by_ bz reach step x y z = Some f /\ ~ all_reachable step reach (inner f).
Proof. exact box_unreachable. Qed.
Print Assumptions C124_reachable_refuted.

(** C125: nor is it the largest reachable box that contains the initial position. *)
Theorem C125_largest_refuted : exists fuel bx by_ bz reach step x y z f b, 0 < step /\ find_cuboid fuel bx by_ bz reach step x y z = Some f /\
  inside step b (outer f) /\ in_box b x y z /\ all_reachable step reach b /\ 27 * sizes step (inner f) <= sizes step b.
Proof. exact box_small. Qed.
Print Assumptions C125_largest_refuted.

(** C124, C125: if the layer of the initial position and the one below are reachable, all the positions of the box reported are reachable, and it is the largest such box
    among those that begin strictly before the initial position and end strictly before the outer box on each axis.  Missing: see the refutations. *)
Theorem C125_largest_partial : forall fuel bx by_ bz reach step x y z f, 0 < step -> find_cuboid fuel bx by_ bz reach step x y z = Some f ->
  let a := fst (fst (outer f)) in let b := snd (fst (outer f)) in let c := snd (outer f) in
  lo a < x < hi a -> lo b < y < hi b -> lo c < z < hi c ->
  (forall u v, sampled step a u -> u < hi a -> sampled step b v -> v < hi b -> reach u v z = true /\ reach u v (z - step) = true) ->
  all_reachable step reach (inner f) /\ around (inner f) (outer f) x y z /\
  (forall b', inside step b' (outer f) -> around b' (outer f) x y z -> all_reachable step reach b' -> sizes step b' <= sizes step (inner f)).
Proof. exact box_largest. Qed.
Print Assumptions C125_largest_partial.

Example C125_largest_example : find_cuboid 9 anywhere anywhere anywhere (block (-2) 2) 1 0 0 0 = Some middle_found /\
  (forall u v, sampled 1 (Axis (-2) 2) u -> u < 2 -> sampled 1 (Axis (-2) 2) v -> v < 2 -> block (-2) 2 u v 0 = true /\ block (-2) 2 u v (0 - 1) = true) /\
  outer middle_found = (Axis (-2) 2, Axis (-2) 2, Axis (-2) 2) /\ inner middle_found = (Axis (-2) 1, Axis (-2) 1, Axis (-2) 1).
Proof. exact (conj middle_search (conj middle_guard (conj eq_refl eq_refl))). Qed.
