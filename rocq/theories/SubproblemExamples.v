(** Concrete cases meeting the hypotheses of the subproblem theorems. *)
From Coq Require Import Reals Lra List Bool Psatz.
From Verif Require Import Kdl KdlFacts Screw ScrewFacts Trig TrigFacts Subproblems SubproblemFacts
  SubproblemFacts2 SubproblemFacts3 SubproblemFacts4.
Import ListNotations.
Open Scope R_scope.

(** a point one metre off the z axis, rotated a quarter turn *)
Lemma ex_pk1 : unit (V 0 0 1) /\
  move1 (E ROTATION (V 0 0 1) (V 1 0 0)) (PI / 2) (fapp fid (V 2 0 7)) = fapp (ftrans (V (-1) 1 0)) (V 2 0 7).
Proof. split; [apply unit_ez|]. rewrite move_rot, rotz_half by apply unit_ez. unfold fid, ftrans, fapp, mid; vring. Qed.

Lemma rotx_half : forall v, mv (Rot2 (V 1 0 0) (PI / 2)) v = V (vx v) (- vz v) (vy v).
Proof. intros []. rewrite <- RotX_Rot2. unfold RotX; vunf. rewrite sin_PI2, cos_PI2. apply vec_eq; cbn; ring. Qed.

(** z and x axes crossing at (0,0,1), both turned a quarter *)
Lemma ex_pk2 :
  let a1 := V 0 0 1 in let a2 := V 1 0 0 in let r := V 0 0 1 in
  let e1 := E ROTATION a1 (vadd r (vscale 3 a1)) in
  let e2 := E ROTATION a2 (vadd r (vscale (-2) a2)) in
  let p := V 1 1 1 in
  let c := move1 e2 (PI / 2) (fapp fid p) in
  unit a1 /\ unit a2 /\ 1 - dot a1 a2 * dot a1 a2 <> 0 /\
  move2 e1 e2 (PI / 2) (PI / 2) (fapp fid p) = fapp (ftrans (V (-1) 0 1)) p /\
  (dot (vsub c r) (cross a1 a2) / (1 - dot a1 a2 * dot a1 a2) = 0 \/
   kdl_eps <= dot (vsub c r) (cross a1 a2) / (1 - dot a1 a2 * dot a1 a2) * (dot (vsub c r) (cross a1 a2) / (1 - dot a1 a2 * dot a1 a2))).
Proof.
  intros. assert (D : dot a1 a2 = 0) by (unfold a1, a2; vunf; ring).
  assert (C : c = V 1 0 2). { unfold c, e2. rewrite move_origin, move_rot, rotx_half by apply unit_ex. unfold r, p, fapp, fid, mid; vring. }
  split; [apply unit_ez|]. split; [apply unit_ex|]. split; [rewrite D; lra|]. split.
  - unfold move2. fold c. rewrite C. unfold e1. rewrite move_origin, move_rot, rotz_half by apply unit_ez.
    unfold r, p, fapp, ftrans, mid; vring.
  - left. rewrite C, D. unfold a1, a2, r; vunf; cbn. field.
Qed.

(** ... and one where the two solutions are apart *)
Lemma ex_pk2_two :
  let a1 := V 0 0 1 in let a2 := V 1 0 0 in let r := V 0 0 1 in
  let e1 := E ROTATION a1 (vadd r (vscale 3 a1)) in
  let e2 := E ROTATION a2 (vadd r (vscale (-2) a2)) in
  let p := V 1 0 2 in
  let c := move1 e2 (PI / 2) (fapp fid p) in
  unit a1 /\ unit a2 /\ 1 - dot a1 a2 * dot a1 a2 <> 0 /\
  move2 e1 e2 (PI / 2) (PI / 2) (fapp fid p) = fapp (ftrans (V 0 1 (-1))) p /\
  (dot (vsub c r) (cross a1 a2) / (1 - dot a1 a2 * dot a1 a2) = 0 \/
   kdl_eps <= dot (vsub c r) (cross a1 a2) / (1 - dot a1 a2 * dot a1 a2) * (dot (vsub c r) (cross a1 a2) / (1 - dot a1 a2 * dot a1 a2))).
Proof.
  intros. assert (D : dot a1 a2 = 0) by (unfold a1, a2; vunf; ring).
  assert (C : c = V 1 (-1) 1). { unfold c, e2. rewrite move_origin, move_rot, rotx_half by apply unit_ex. unfold r, p, fapp, fid, mid; vring. }
  split; [apply unit_ez|]. split; [apply unit_ex|]. split; [rewrite D; lra|]. split.
  - unfold move2. fold c. rewrite C. unfold e1. rewrite move_origin, move_rot, rotz_half by apply unit_ez.
    unfold r, p, fapp, ftrans, mid; vring.
  - right. rewrite C, D. pose proof eps_small.
    replace (dot (vsub (V 1 (-1) 1) r) (cross a1 a2)) with (-1) by (unfold a1, a2, r; vunf; cbn; ring).
    replace (-1 / (1 - 0 * 0) * (-1 / (1 - 0 * 0))) with 1 by field. lra.
Qed.

Lemma norm_100 : norm (V 1 0 0) = 1. Proof. apply unit_norm, unit_ex. Qed.

(** centre and point one metre off the z axis, wanted distance sqrt 2 *)
Lemma ex_pk3 :
  let a := V 0 0 1 in let o := V 0 0 0 in let f := fapp fid (V 1 0 0) in let k := V 1 0 0 in
  let delta := dist (fapp (ftrans (V (-1) 1 0)) (V 1 0 0)) k in
  unit a /\ norm (perp a (vsub f o)) <> 0 /\ norm (perp a (vsub k o)) <> 0 /\
  Rabs (elbow_cos a o f k delta) <= 1 - kdl_eps /\
  dist (move1 (E ROTATION a o) (PI / 2) f) k = delta.
Proof.
  intros. assert (F : f = V 1 0 0) by apply fapp_id.
  assert (P : perp a (vsub (V 1 0 0) o) = V 1 0 0) by (unfold perp, a, o; vring).
  assert (T : fapp (ftrans (V (-1) 1 0)) (V 1 0 0) = V 0 1 0) by (unfold fid, fapp, ftrans, mid; vring).
  assert (DD : delta * delta = 2).
  { unfold delta. rewrite T. unfold dist. rewrite norm_sqr. unfold k; vunf; cbn. ring. }
  split; [apply unit_ez|]. rewrite F. fold k. unfold k at 1 2. rewrite P, norm_100.
  split; [lra|]. split; [lra|]. split.
  - unfold elbow_cos, k. rewrite P, norm_100, DD, vsub_diag, dot_zero_r.
    replace ((1 * 1 + 1 * 1 - (2 - 0 * 0)) / (2 * 1 * 1)) with 0 by field. rewrite Rabs_R0. pose proof eps_small. lra.
  - unfold delta. rewrite T. f_equal. rewrite move_rot, rotz_half by apply unit_ez. unfold o, k; vring.
Qed.

(** centre twice as far as the point, wanted distance the smallest one *)
Lemma ex_pk3_near :
  let a := V 0 0 1 in let o := V 0 0 0 in let f := fapp fid (V 1 0 0) in let k := V 2 0 0 in
  let delta := dist (fapp fid (V 1 0 0)) k in
  unit a /\ norm (perp a (vsub f o)) <> 0 /\ norm (perp a (vsub k o)) <> 0 /\
  elbow_cos a o f k delta = 1.
Proof.
  intros. assert (F : f = V 1 0 0) by apply fapp_id.
  assert (P : perp a (vsub (V 1 0 0) o) = V 1 0 0) by (unfold perp, a, o; vring).
  assert (Q : perp a (vsub (V 2 0 0) o) = V 2 0 0) by (unfold perp, a, o; vring).
  assert (DD : delta * delta = 1).
  { unfold delta. rewrite fapp_id. unfold dist. rewrite norm_sqr. unfold k; vunf; cbn. ring. }
  split; [apply unit_ez|]. rewrite F. unfold k. rewrite P, Q, norm_100, norm_200.
  split; [lra|]. split; [lra|]. unfold elbow_cos. rewrite P, Q, norm_100, norm_200, DD.
  replace (dot a (vsub (V 1 0 0) (V 2 0 0))) with 0 by (unfold a; vunf; cbn; ring). field.
Qed.

Lemma ex_pg2 :
  unit (V 1 0 0) /\ unit (V 0 1 0) /\ cross (V 0 1 0) (V 1 0 0) <> vzero /\
  move2 (E TRANSLATION (V 1 0 0) vzero) (E TRANSLATION (V 0 1 0) vzero) (-3) 4 (fapp fid (V 1 1 1)) = fapp (ftrans (V (-3) 4 0)) (V 1 1 1).
Proof.
  split; [apply unit_ex|]. split; [apply unit_ey|]. split.
  - intro H. apply (f_equal vz) in H. revert H. vunf. cbn. lra.
  - unfold move2. rewrite !move_trans. unfold fid, fapp, ftrans, mid; vring.
Qed.

(** centre off the axis, wanted distance larger than the distance to the axis *)
Lemma ex_pg3 :
  let a := V 0 0 1 in let k := V 1 0 3 in let f := fapp fid (V 1 0 0) in
  let delta := dist (fapp (ftrans (V 0 0 1)) (V 1 0 0)) k in
  unit a /\ kdl_eps <= dot a (vsub k f) * dot a (vsub k f) - dot (vsub k f) (vsub k f) + delta * delta.
Proof.
  intros. split; [apply unit_ez|].
  assert (DD : delta * delta = 4).
  { unfold delta, dist. rewrite norm_sqr. unfold k, fapp, ftrans, mid; vunf; cbn. ring. }
  rewrite DD. unfold a, k, f. rewrite fapp_id. vunf. cbn. unfold kdl_eps. lra.
Qed.
Lemma ex_pg3_near :
  let a := V 0 0 1 in let k := V 1 0 3 in let f := fapp fid (V 0 0 0) in
  let delta := dist (fapp (ftrans (V 0 0 3)) (V 0 0 0)) k in
  unit a /\ 0 <= dot a (vsub k f) /\
  dot a (vsub k f) * dot a (vsub k f) - dot (vsub k f) (vsub k f) + delta * delta = 0.
Proof.
  intros. split; [apply unit_ez|].
  assert (DD : delta * delta = 1).
  { unfold delta, dist. rewrite norm_sqr. unfold k, fapp, ftrans, mid; vunf; cbn. ring. }
  rewrite DD. unfold a, k, f. rewrite fapp_id. vunf. cbn. split; lra.
Qed.

(** two antiparallel axes two metres apart, both turned a quarter *)
Lemma ex_pg4 :
  let a1 := V 0 0 1 in let o1 := V 0 0 0 in let a2 := vscale (-1) a1 in let o2 := V 2 0 0 in
  let p := V 3 0 1 in let rhs := ftrans (V (-2) 2 0) in
  unit a1 /\ -1 * -1 = 1 /\ kdl_eps <= norm (perp a1 (vsub o2 o1)) /\
  move2 (E ROTATION a1 o1) (E ROTATION a2 o2) (PI / 2) (PI / 2) (fapp fid p) = fapp rhs p /\
  kdl_eps <= norm (perp a1 (vsub (fapp fid p) o2)) + norm (perp a1 (vsub (fapp rhs p) o1)) - norm (perp a1 (vsub o2 o1)).
Proof.
  intros. pose proof eps_small. pose proof kdl_eps_pos.
  split; [apply unit_ez|]. split; [lra|].
  assert (ND : norm (perp a1 (vsub o2 o1)) = 2) by (unfold a1, o1, o2; rewrite pg4_D; apply norm_200).
  rewrite ND. split; [lra|]. split.
  - assert (UM : unit a2) by (unfold a2, a1, unit; vunf; cbn; ring).
    unfold move2. rewrite (move_rot a2), (move_rot a1) by (auto; apply unit_ez).
    replace a2 with (vneg a1) by (unfold a2; vlin). rewrite Rot2_opp_axis. unfold a1.
    rewrite rotz_mhalf, rotz_half. unfold o1, o2, p, rhs, fapp, ftrans, fid, mid; vring.
  - replace (perp a1 (vsub (fapp fid p) o2)) with (V 1 0 0) by (unfold perp, a1, p, o2, fapp, fid, mid; vring).
    replace (perp a1 (vsub (fapp rhs p) o1)) with (V 1 2 0) by (unfold perp, a1, p, o1, rhs, fapp, ftrans, mid; vring).
    rewrite norm_100. assert (2 <= norm (V 1 2 0)); [|lra].
    unfold norm. replace 2 with (sqrt (2 * 2)) at 1 by (apply sqrt_square; lra). apply sqrt_le_1_alt. vunf. cbn. lra.
Qed.
