(** Properties of the closed-form subproblems (C09-C14, C59). *)
From Coq Require Import Reals List.
From Verif Require Import Kdl KdlFacts Screw Subproblems SubproblemFacts SubproblemFacts2 SubproblemFacts3 SubproblemFacts4 SubproblemFacts5 SubproblemSpec2 SubproblemFacts6 SubproblemExamples.
Import ListNotations.
Open Scope R_scope.

(** C09: a reachable target is found. *)
Theorem C09_pk1_complete : forall id a o p rhs pt t, unit a ->
  move1 (E ROTATION a o) t (fapp pt p) = fapp rhs p ->
  exists th, pk1_solve id (E ROTATION a o) p rhs pt = Some (true, [[(id, th)]]) /\
    reaches1 (E ROTATION a o) (fapp pt p) (fapp rhs p) th.
Proof. exact pk1_complete'. Qed.
Print Assumptions C09_pk1_complete.
Example C09_example : unit (V 0 0 1) /\
  move1 (E ROTATION (V 0 0 1) (V 1 0 0)) (PI / 2) (fapp fid (V 2 0 7)) = fapp (ftrans (V (-1) 1 0)) (V 2 0 7).
Proof. exact ex_pk1. Qed.

(** C09: a target reported reachable is reached, up to the library's tolerance. *)
Theorem C09_pk1_sound : forall id a o p rhs pt sols, unit a ->
  pk1_solve id (E ROTATION a o) p rhs pt = Some (true, sols) ->
  exists th, sols = [[(id, th)]] /\
    dist (move1 (E ROTATION a o) th (fapp pt p)) (fapp rhs p) <= 3 * kdl_eps + kdl_eps * dist (fapp pt p) o.
Proof. exact pk1_sound. Qed.
Print Assumptions C09_pk1_sound.
(** C09_example gives, through C09_pk1_complete, a case of the hypothesis *)
Example C09_sound_example : exists sols,
  pk1_solve 0 (E ROTATION (V 0 0 1) (V 1 0 0)) (V 2 0 7) (ftrans (V (-1) 1 0)) fid = Some (true, sols).
Proof. destruct (pk1_complete' 0 _ _ _ _ _ _ (proj1 ex_pk1) (proj2 ex_pk1)) as (th & H & _). eauto. Qed.

(** C09: unless the point is on the axis, the angle that moves it there is the one returned. *)
Theorem C09_pk1_found : forall id a o p rhs pt t, unit a ->
  move1 (E ROTATION a o) t (fapp pt p) = fapp rhs p ->
  perp a (vsub (fapp pt p) o) <> vzero -> settled t ->
  pk1_solve id (E ROTATION a o) p rhs pt = Some (true, [[(id, t)]]).
Proof. exact pk1_found. Qed.
Print Assumptions C09_pk1_found.
Example C09_found_example : perp (V 0 0 1) (vsub (fapp fid (V 2 0 7)) (V 1 0 0)) <> vzero /\ settled (PI / 2).
Proof. exact (conj ex_pk1_off ex_pk1_settled). Qed.

(** C10: r lies on both axes; the motion (t1, t2) takes the point to the target.  The last
    hypothesis excludes the band where the two intermediate points are within the
    tolerance of each other without being the same. *)
Theorem C10_pk2_complete_partial : forall a1 a2, unit a1 -> unit a2 -> 1 - dot a1 a2 * dot a1 a2 <> 0 ->
  forall id1 id2 s1 s2 p r rhs pt t1 t2,
  let e1 := E ROTATION a1 (vadd r (vscale s1 a1)) in
  let e2 := E ROTATION a2 (vadd r (vscale s2 a2)) in
  move2 e1 e2 t1 t2 (fapp pt p) = fapp rhs p ->
  let g := dot (vsub (move1 e2 t2 (fapp pt p)) r) (cross a1 a2) / (1 - dot a1 a2 * dot a1 a2) in
  (g = 0 \/ kdl_eps <= g * g) ->
  exists th11 th21 th12 th22,
    pk2_solve id1 id2 e1 e2 p r rhs pt = Some (true, [[(id1, th11); (id2, th21)]; [(id1, th12); (id2, th22)]]) /\
    reaches2 e1 e2 (fapp pt p) (fapp rhs p) th11 th21 /\
    reaches2 e1 e2 (fapp pt p) (fapp rhs p) th12 th22 /\
    (same_place e2 (fapp pt p) th21 t2 \/ same_place e2 (fapp pt p) th22 t2).
Proof. exact pk2_main. Qed.
Print Assumptions C10_pk2_complete_partial.
Example C10_example_two_solutions :
  let a1 := V 0 0 1 in let a2 := V 1 0 0 in let r := V 0 0 1 in
  let e1 := E ROTATION a1 (vadd r (vscale 3 a1)) in
  let e2 := E ROTATION a2 (vadd r (vscale (-2) a2)) in
  let p := V 1 0 2 in
  let c := move1 e2 (PI / 2) (fapp fid p) in
  unit a1 /\ unit a2 /\ 1 - dot a1 a2 * dot a1 a2 <> 0 /\
  move2 e1 e2 (PI / 2) (PI / 2) (fapp fid p) = fapp (ftrans (V 0 1 (-1))) p /\
  (dot (vsub c r) (cross a1 a2) / (1 - dot a1 a2 * dot a1 a2) = 0 \/
   kdl_eps <= dot (vsub c r) (cross a1 a2) / (1 - dot a1 a2 * dot a1 a2) * (dot (vsub c r) (cross a1 a2) / (1 - dot a1 a2 * dot a1 a2))).
Proof. exact ex_pk2_two. Qed.
Example C10_example_merged :
  let a1 := V 0 0 1 in let a2 := V 1 0 0 in let r := V 0 0 1 in
  let e1 := E ROTATION a1 (vadd r (vscale 3 a1)) in
  let e2 := E ROTATION a2 (vadd r (vscale (-2) a2)) in
  let p := V 1 1 1 in
  let c := move1 e2 (PI / 2) (fapp fid p) in
  unit a1 /\ unit a2 /\ 1 - dot a1 a2 * dot a1 a2 <> 0 /\
  move2 e1 e2 (PI / 2) (PI / 2) (fapp fid p) = fapp (ftrans (V (-1) 0 1)) p /\
  (dot (vsub c r) (cross a1 a2) / (1 - dot a1 a2 * dot a1 a2) = 0 \/
   kdl_eps <= dot (vsub c r) (cross a1 a2) / (1 - dot a1 a2 * dot a1 a2) * (dot (vsub c r) (cross a1 a2) / (1 - dot a1 a2 * dot a1 a2))).
Proof. exact ex_pk2. Qed.

(** C10 without that hypothesis is false: the present position itself (both joints at
    zero), half a millimetre off the first axis, is reported unreachable. *)
Theorem C10_pk2_flag_refuted : exists id1 id2 e1 e2 p r rhs pt s1 s2 sols,
  unit (e_axis e1) /\ unit (e_axis e2) /\ dot (e_axis e1) (e_axis e2) = 0 /\
  e_origin e1 = vadd r (vscale s1 (e_axis e1)) /\ e_origin e2 = vadd r (vscale s2 (e_axis e2)) /\
  e_motion e1 = ROTATION /\ e_motion e2 = ROTATION /\ rigid rhs /\ rigid pt /\
  move2 e1 e2 0 0 (fapp pt p) = fapp rhs p /\
  pk2_solve id1 id2 e1 e2 p r rhs pt = Some (false, sols).
Proof. exact pk2_unreachable_ex. Qed.
Print Assumptions C10_pk2_flag_refuted.

(** C10: a target reported reachable is reached by both solutions, up to the tolerance (a
    square root appears because the two intermediate points are merged when the square of
    their distance is below it). *)
Theorem C10_pk2_flag_sound : forall a1 a2, unit a1 -> unit a2 -> 1 - dot a1 a2 * dot a1 a2 <> 0 ->
  forall id1 id2 s1 s2 p r rhs pt sols,
  let e1 := E ROTATION a1 (vadd r (vscale s1 a1)) in
  let e2 := E ROTATION a2 (vadd r (vscale s2 a2)) in
  pk2_solve id1 id2 e1 e2 p r rhs pt = Some (true, sols) ->
  exists th11 th21 th12 th22, sols = [[(id1, th11); (id2, th21)]; [(id1, th12); (id2, th22)]] /\
    dist (move2 e1 e2 th11 th21 (fapp pt p)) (fapp rhs p) <= sqrt kdl_eps + kdl_eps * (2 + 2 * dist (fapp pt p) r) /\
    dist (move2 e1 e2 th12 th22 (fapp pt p)) (fapp rhs p) <= sqrt kdl_eps + kdl_eps * (2 + 2 * dist (fapp pt p) r).
Proof. exact pk2_flag_sound. Qed.
Print Assumptions C10_pk2_flag_sound.
Example C10_flag_sound_example : let r := V 0 0 1 in exists sols,
  pk2_solve 0 1 (E ROTATION (V 0 0 1) (vadd r (vscale 3 (V 0 0 1)))) (E ROTATION (V 1 0 0) (vadd r (vscale (-2) (V 1 0 0))))
    (V 1 0 2) r (ftrans (V 0 1 (-1))) fid = Some (true, sols).
Proof. destruct ex_pk2_two as (A & B & C & D & F). destruct (pk2_main _ _ A B C 0 1 _ _ _ _ _ _ _ _ D F) as (x & y & z & w & H & _). eauto. Qed.

(** C11: away from the two extreme distances both angles are right and they are the only ones. *)
Theorem C11_pk3_generic_partial : forall id a o p k rhs pt, unit a ->
  let f := fapp pt p in let e := E ROTATION a o in let delta := dist (fapp rhs p) k in
  norm (perp a (vsub f o)) <> 0 -> norm (perp a (vsub k o)) <> 0 ->
  Rabs (elbow_cos a o f k delta) <= 1 - kdl_eps ->
  exists th1 th2, pk3_solve id e p k rhs pt = Some (true, [[(id, th1)]; [(id, th2)]]) /\
    reaches_dist e f k delta th1 /\ reaches_dist e f k delta th2 /\
    (forall t, dist (move1 e t f) k = delta -> same_place e f th1 t \/ same_place e f th2 t).
Proof. exact pk3_generic. Qed.
Print Assumptions C11_pk3_generic_partial.
Example C11_example :
  let a := V 0 0 1 in let o := V 0 0 0 in let f := fapp fid (V 1 0 0) in let k := V 1 0 0 in
  let delta := dist (fapp (ftrans (V (-1) 1 0)) (V 1 0 0)) k in
  unit a /\ norm (perp a (vsub f o)) <> 0 /\ norm (perp a (vsub k o)) <> 0 /\
  Rabs (elbow_cos a o f k delta) <= 1 - kdl_eps /\
  dist (move1 (E ROTATION a o) (PI / 2) f) k = delta.
Proof. exact ex_pk3. Qed.

(** C11: at the smallest distance. *)
Theorem C11_pk3_near_partial : forall id a o p k rhs pt, unit a ->
  let f := fapp pt p in let e := E ROTATION a o in let delta := dist (fapp rhs p) k in
  norm (perp a (vsub f o)) <> 0 -> norm (perp a (vsub k o)) <> 0 ->
  Rabs (elbow_cos a o f k delta - 1) < kdl_eps ->
  exists th, pk3_solve id e p k rhs pt = Some (true, [[(id, th)]; [(id, th)]]) /\
    (- PI < th <= PI) /\
    (elbow_cos a o f k delta = 1 -> reaches_dist e f k delta th) /\
    (th <> PI -> Rabs (dist (move1 e th f) k * dist (move1 e th f) k - delta * delta)
                 <= 2 * (norm (perp a (vsub f o)) * norm (perp a (vsub k o))) * kdl_eps).
Proof. exact pk3_near. Qed.
Print Assumptions C11_pk3_near_partial.
Example C11_near_example :
  let a := V 0 0 1 in let o := V 0 0 0 in let f := fapp fid (V 1 0 0) in let k := V 2 0 0 in
  let delta := dist (fapp fid (V 1 0 0)) k in
  unit a /\ norm (perp a (vsub f o)) <> 0 /\ norm (perp a (vsub k o)) <> 0 /\
  elbow_cos a o f k delta = 1.
Proof. exact ex_pk3_near. Qed.

(** C11: the flag. *)
Theorem C11_pk3_flag_complete : forall id a o p k rhs pt, unit a ->
  let f := fapp pt p in let e := E ROTATION a o in let delta := dist (fapp rhs p) k in
  norm (perp a (vsub f o)) <> 0 -> norm (perp a (vsub k o)) <> 0 ->
  forall t, dist (move1 e t f) k = delta ->
  exists sols, pk3_solve id e p k rhs pt = Some (true, sols).
Proof. exact pk3_flag. Qed.
Print Assumptions C11_pk3_flag_complete.
Theorem C11_pk3_flag_sound : forall id a o p k rhs pt, unit a ->
  let f := fapp pt p in let e := E ROTATION a o in let delta := dist (fapp rhs p) k in
  norm (perp a (vsub f o)) <> 0 -> norm (perp a (vsub k o)) <> 0 ->
  forall sols, pk3_solve id e p k rhs pt = Some (true, sols) ->
  exists t, Rabs (dist (move1 e t f) k * dist (move1 e t f) k - delta * delta)
            <= 2 * (norm (perp a (vsub f o)) * norm (perp a (vsub k o))) * kdl_eps.
Proof. exact pk3_flag_sound. Qed.
Print Assumptions C11_pk3_flag_sound.

(** C11 at the largest distance is false: the angle returned puts the point on the near
    side, two units away from where it must be. *)
Theorem C11_pk3_far_refuted : exists id e p k rhs pt,
  unit (e_axis e) /\ e_motion e = ROTATION /\ rigid rhs /\ rigid pt /\
  (exists t, dist (move1 e t (fapp pt p)) k = dist (fapp rhs p) k) /\
  exists th, pk3_solve id e p k rhs pt = Some (true, [[(id, th)]; [(id, th)]]) /\
    dist (move1 e th (fapp pt p)) k + 2 = dist (fapp rhs p) k.
Proof. exact pk3_far_ex. Qed.
Print Assumptions C11_pk3_far_refuted.

(** C12: the magnitudes are exactly those of any translation that works, hence unique. *)
Theorem C12_pg1_exact : forall id a o p rhs pt t, unit a ->
  move1 (E TRANSLATION a o) t (fapp pt p) = fapp rhs p ->
  pg1_solve id (E TRANSLATION a o) p rhs pt = Some (true, [[(id, t)]]).
Proof. exact pg1_exact. Qed.
Print Assumptions C12_pg1_exact.
Example C12_pg1_example : unit (V 1 0 0) /\
  move1 (E TRANSLATION (V 1 0 0) vzero) (-3) (fapp fid (V 1 1 1)) = fapp (ftrans (V (-3) 0 0)) (V 1 1 1).
Proof. split; [apply unit_ex|]. rewrite move_trans. unfold fid, fapp, ftrans, mid; vring. Qed.
Theorem C12_pg2_exact : forall id1 id2 a1 a2 o1 o2 p rhs pt t1 t2, unit a1 -> unit a2 -> cross a2 a1 <> vzero ->
  move2 (E TRANSLATION a1 o1) (E TRANSLATION a2 o2) t1 t2 (fapp pt p) = fapp rhs p ->
  pg2_solve id1 id2 (E TRANSLATION a1 o1) (E TRANSLATION a2 o2) p rhs pt = Some (true, [[(id1, t1); (id2, t2)]]).
Proof. exact pg2_exact. Qed.
Print Assumptions C12_pg2_exact.
Example C12_pg2_example :
  unit (V 1 0 0) /\ unit (V 0 1 0) /\ cross (V 0 1 0) (V 1 0 0) <> vzero /\
  move2 (E TRANSLATION (V 1 0 0) vzero) (E TRANSLATION (V 0 1 0) vzero) (-3) 4 (fapp fid (V 1 1 1)) = fapp (ftrans (V (-3) 4 0)) (V 1 1 1).
Proof. exact ex_pg2. Qed.

(** C13: away from the tangent position the two magnitudes are exactly the solutions. *)
Theorem C13_pg3_generic_partial : forall id a o p k rhs pt, unit a ->
  let f := fapp pt p in let e := E TRANSLATION a o in let delta := dist (fapp rhs p) k in
  let dp := dot a (vsub k f) in
  kdl_eps <= dp * dp - dot (vsub k f) (vsub k f) + delta * delta ->
  exists th1 th2, pg3_solve id e p k rhs pt = Some (true, [[(id, th1)]; [(id, th2)]]) /\
    forall t, dist (move1 e t f) k = delta <-> (t = th1 \/ t = th2).
Proof. exact pg3_generic. Qed.
Print Assumptions C13_pg3_generic_partial.
Example C13_example :
  let a := V 0 0 1 in let k := V 1 0 3 in let f := fapp fid (V 1 0 0) in
  let delta := dist (fapp (ftrans (V 0 0 1)) (V 1 0 0)) k in
  unit a /\ kdl_eps <= dot a (vsub k f) * dot a (vsub k f) - dot (vsub k f) (vsub k f) + delta * delta.
Proof. exact ex_pg3. Qed.

(** C13: the tangent position ahead of the point. *)
Theorem C13_pg3_tangent_partial : forall id a o p k rhs pt, unit a ->
  let f := fapp pt p in let e := E TRANSLATION a o in let delta := dist (fapp rhs p) k in
  let dp := dot a (vsub k f) in
  let sq2 := dp * dp - dot (vsub k f) (vsub k f) + delta * delta in
  0 <= sq2 < kdl_eps -> 0 <= dp ->
  exists th, pg3_solve id e p k rhs pt = Some (true, [[(id, th)]; [(id, th)]]) /\
    Rabs (dist (move1 e th f) k * dist (move1 e th f) k - delta * delta) < kdl_eps /\
    (sq2 = 0 -> forall t, dist (move1 e t f) k = delta <-> t = th).
Proof. exact pg3_near. Qed.
Print Assumptions C13_pg3_tangent_partial.
Example C13_tangent_example :
  let a := V 0 0 1 in let k := V 1 0 3 in let f := fapp fid (V 0 0 0) in
  let delta := dist (fapp (ftrans (V 0 0 3)) (V 0 0 0)) k in
  unit a /\ 0 <= dot a (vsub k f) /\
  dot a (vsub k f) * dot a (vsub k f) - dot (vsub k f) (vsub k f) + delta * delta = 0.
Proof. exact ex_pg3_near. Qed.

Theorem C13_pg3_flag : forall id a o p k rhs pt, unit a ->
  forall t, dist (move1 (E TRANSLATION a o) t (fapp pt p)) k = dist (fapp rhs p) k ->
  exists sols, pg3_solve id (E TRANSLATION a o) p k rhs pt = Some (true, sols).
Proof. exact pg3_flag. Qed.
Print Assumptions C13_pg3_flag.

(** C13 is false at the tangent position behind the point: the sign is lost. *)
Theorem C13_pg3_tangent_refuted : exists id e p k rhs pt,
  unit (e_axis e) /\ e_motion e = TRANSLATION /\ rigid rhs /\ rigid pt /\
  (exists t, dist (move1 e t (fapp pt p)) k = dist (fapp rhs p) k) /\
  exists th, pg3_solve id e p k rhs pt = Some (true, [[(id, th)]; [(id, th)]]) /\
    dist (fapp rhs p) k + 3 <= dist (move1 e th (fapp pt p)) k.
Proof. exact pg3_neg_ex. Qed.
Print Assumptions C13_pg3_tangent_refuted.

(** C14: two axes of equal or opposite direction, not fully stretched. *)
Theorem C14_pg4_complete_partial : forall id1 id2 a1 o1 a2 o2 p s rhs pt,
  unit a1 -> s * s = 1 -> a2 = vscale s a1 ->
  let f := fapp pt p in let k := fapp rhs p in
  let e1 := E ROTATION a1 o1 in let e2 := E ROTATION a2 o2 in
  kdl_eps <= norm (perp a1 (vsub o2 o1)) ->
  forall t1 t2, move2 e1 e2 t1 t2 f = k ->
  kdl_eps <= norm (perp a1 (vsub f o2)) + norm (perp a1 (vsub k o1)) - norm (perp a1 (vsub o2 o1)) ->
  exists th11 th21 th12 th22,
    pg4_solve id1 id2 e1 e2 p rhs pt = Some (true, [[(id1, th11); (id2, th21)]; [(id1, th12); (id2, th22)]]) /\
    reaches2 e1 e2 f k th11 th21 /\ reaches2 e1 e2 f k th12 th22 /\
    (same_place e2 f th21 t2 \/ same_place e2 f th22 t2).
Proof. exact pg4_main. Qed.
Print Assumptions C14_pg4_complete_partial.
Example C14_example :
  let a1 := V 0 0 1 in let o1 := V 0 0 0 in let a2 := vscale (-1) a1 in let o2 := V 2 0 0 in
  let p := V 3 0 1 in let rhs := ftrans (V (-2) 2 0) in
  unit a1 /\ -1 * -1 = 1 /\ kdl_eps <= norm (perp a1 (vsub o2 o1)) /\
  move2 (E ROTATION a1 o1) (E ROTATION a2 o2) (PI / 2) (PI / 2) (fapp fid p) = fapp rhs p /\
  kdl_eps <= norm (perp a1 (vsub (fapp fid p) o2)) + norm (perp a1 (vsub (fapp rhs p) o1)) - norm (perp a1 (vsub o2 o1)).
Proof. exact ex_pg4. Qed.

(** C14: a target reported reachable by an arm that is not fully stretched lies in the plane
    of motion. *)
Theorem C14_pg4_flag_plane_partial : forall id1 id2 a1 o1 a2 o2 p s rhs pt sols,
  unit a1 -> s * s = 1 -> a2 = vscale s a1 ->
  let f := fapp pt p in let k := fapp rhs p in
  kdl_eps <= norm (perp a1 (vsub o2 o1)) ->
  kdl_eps <= norm (perp a1 (vsub f o2)) + norm (perp a1 (vsub k o1)) - norm (perp a1 (vsub o2 o1)) ->
  pg4_solve id1 id2 (E ROTATION a1 o1) (E ROTATION a2 o2) p rhs pt = Some (true, sols) ->
  Rabs (dot a1 (vsub k f)) < 2 * kdl_eps.
Proof. exact pg4_flag_plane. Qed.
Print Assumptions C14_pg4_flag_plane_partial.

(** C14: in that plane both solutions reach it, up to the tolerance. *)
Theorem C14_pg4_flag_sound_partial : forall id1 id2 a1 o1 a2 o2 p s rhs pt sols,
  unit a1 -> s * s = 1 -> a2 = vscale s a1 ->
  let f := fapp pt p in let k := fapp rhs p in
  let e1 := E ROTATION a1 o1 in let e2 := E ROTATION a2 o2 in
  let nu := norm (perp a1 (vsub f o2)) in let nv := norm (perp a1 (vsub k o1)) in
  kdl_eps <= norm (perp a1 (vsub o2 o1)) ->
  kdl_eps <= nu + nv - norm (perp a1 (vsub o2 o1)) ->
  dot a1 (vsub k f) = 0 ->
  pg4_solve id1 id2 e1 e2 p rhs pt = Some (true, sols) ->
  exists th11 th21 th12 th22, sols = [[(id1, th11); (id2, th21)]; [(id1, th12); (id2, th22)]] /\
    dist (move2 e1 e2 th11 th21 f) k <= sqrt (kdl_eps * (2 * nv + 1)) + kdl_eps * (2 + nu + nv) /\
    dist (move2 e1 e2 th12 th22 f) k <= sqrt (kdl_eps * (2 * nv + 1)) + kdl_eps * (2 + nu + nv).
Proof. exact pg4_flag_sound. Qed.
Print Assumptions C14_pg4_flag_sound_partial.
Example C14_flag_sound_example : exists sols,
  pg4_solve 0 1 (E ROTATION (V 0 0 1) (V 0 0 0)) (E ROTATION (vscale (-1) (V 0 0 1)) (V 2 0 0)) (V 3 0 1) (ftrans (V (-2) 2 0)) fid = Some (true, sols) /\
  dot (V 0 0 1) (vsub (fapp (ftrans (V (-2) 2 0)) (V 3 0 1)) (fapp fid (V 3 0 1))) = 0.
Proof.
  destruct ex_pg4 as (A & B & C & D & F). destruct (pg4_main 0 1 _ _ _ _ _ (-1) _ _ A B eq_refl C _ _ D F) as (x & y & z & w & H & _).
  eexists. split; [exact H|]. unfold ftrans, fid, fapp, mid; vunf; ring.
Qed.

(** C14 is false when fully stretched: the second angle has the wrong sign. *)
Theorem C14_pg4_stretched_refuted : exists id1 id2 e1 e2 p rhs pt,
  unit (e_axis e1) /\ e_axis e2 = e_axis e1 /\ e_motion e1 = ROTATION /\ e_motion e2 = ROTATION /\ rigid rhs /\ rigid pt /\
  (exists t1 t2, move2 e1 e2 t1 t2 (fapp pt p) = fapp rhs p) /\
  exists th1 th2, pg4_solve id1 id2 e1 e2 p rhs pt = Some (true, [[(id1, th1); (id2, th2)]; [(id1, th1); (id2, th2)]]) /\
    2 <= dist (move2 e1 e2 th1 th2 (fapp pt p)) (fapp rhs p).
Proof. exact pg4_stretched_ex. Qed.
Print Assumptions C14_pg4_stretched_refuted.

(** C14: a target five units off the plane of motion is reported reachable. *)
Theorem C14_pg4_flag_refuted : exists id1 id2 e1 e2 p rhs pt sols,
  unit (e_axis e1) /\ e_axis e2 = e_axis e1 /\ e_motion e1 = ROTATION /\ e_motion e2 = ROTATION /\ rigid rhs /\ rigid pt /\
  pg4_solve id1 id2 e1 e2 p rhs pt = Some (true, sols) /\
  forall t1 t2, 5 <= dist (move2 e1 e2 t1 t2 (fapp pt p)) (fapp rhs p).
Proof. exact pg4_offplane_ex. Qed.
Print Assumptions C14_pg4_flag_refuted.

(** C59: both translation subproblems claim reachability of targets no translation reaches. *)
Theorem C59_translation_flag_refuted :
  (exists id e p rhs pt sols, unit (e_axis e) /\ e_motion e = TRANSLATION /\ rigid rhs /\ rigid pt /\
    pg1_solve id e p rhs pt = Some (true, sols) /\
    forall t, 1 <= dist (move1 e t (fapp pt p)) (fapp rhs p)) /\
  (exists id1 id2 e1 e2 p rhs pt sols, unit (e_axis e1) /\ unit (e_axis e2) /\
    e_motion e1 = TRANSLATION /\ e_motion e2 = TRANSLATION /\ cross (e_axis e1) (e_axis e2) <> vzero /\ rigid rhs /\ rigid pt /\
    pg2_solve id1 id2 e1 e2 p rhs pt = Some (true, sols) /\
    forall t1 t2, 1 <= dist (move2 e1 e2 t1 t2 (fapp pt p)) (fapp rhs p)).
Proof. exact pg_flag_ex. Qed.
Print Assumptions C59_translation_flag_refuted.
