(** What the subproblems of one joint answer for a target out of reach (C166). *)
From Coq Require Import Reals List Lra Psatz Bool.
From Verif Require Import Kdl KdlFacts Screw ScrewFacts Trig TrigFacts Subproblems SubproblemFacts SubproblemFacts2 SubproblemFacts3 NearPlaneFacts.
Import ListNotations.
Open Scope R_scope.

Lemma pk1_nearest : forall id a o p rhs pt, unit a ->
  let e := E ROTATION a o in let f := fapp pt p in let k := fapp rhs p in
  exists flag th, pk1_solve id e p rhs pt = Some (flag, [[(id, th)]]) /\
    forall t, (th <> PI -> dist (move1 e th f) k <= dist (move1 e t f) k) /\
      dist (move1 e th f) k <= dist (move1 e t f) k + kdl_eps * dist f o.
Proof.
  intros id a o p rhs pt U e f k. unfold e. rewrite pk1_unfold. cbv zeta. do 2 eexists. split; [reflexivity|].
  fold f k. set (al := raw_angle a (vsub f o) (vsub k o)). intro t.
  assert (G : dist (move1 (E ROTATION a o) al f) k <= dist (move1 (E ROTATION a o) t f) k).
  { apply sq_le; try apply norm_nonneg. rewrite !pk3_dist2 by auto. fold al. replace (al - al) with 0 by ring. rewrite cos_0.
    pose proof (COS_bound (t - al)) as (_ & C).
    assert (0 <= norm (perp a (vsub f o)) * norm (perp a (vsub k o))) by (apply Rmult_le_pos; apply norm_nonneg). nra. }
  destruct (snap_rot a al (vsub f o) U (raw_range a _ _)) as (_ & X & N). split.
  - intro Z. rewrite (move_rot a o (normalizeAngle al)), X by auto. rewrite <- move_rot by auto. exact G.
  - assert (D : dist (move1 (E ROTATION a o) (normalizeAngle al) f) (move1 (E ROTATION a o) al f) <= kdl_eps * dist f o).
    { unfold dist. rewrite !move_rot by auto. match goal with |- norm ?x <= _ => replace x with
        (vsub (mv (Rot2 a (normalizeAngle al)) (vsub f o)) (mv (Rot2 a al) (vsub f o))) by vlin end. exact N. }
    unfold dist in *. pose proof (norm_triangle3 (move1 (E ROTATION a o) (normalizeAngle al) f) (move1 (E ROTATION a o) al f) k). lra.
Qed.

Lemma trans_dist2 : forall a o f k t, unit a ->
  dist (move1 (E TRANSLATION a o) t f) k * dist (move1 (E TRANSLATION a o) t f) k
  = (t - dot a (vsub k f)) * (t - dot a (vsub k f)) + (dot (vsub k f) (vsub k f) - dot a (vsub k f) * dot a (vsub k f)).
Proof.
  intros a o f k t U. unfold dist. rewrite norm_sqr, move_trans.
  replace (vsub (vadd f (vscale t a)) k) with (vsub (vscale t a) (vsub k f)) by vlin.
  generalize (vsub k f). intro d. rewrite dot_sub_l, !dot_sub_r, !dot_scale_l, !dot_scale_r, (dot_comm d a), U. ring.
Qed.

Lemma pg1_nearest : forall id a o p rhs pt, unit a ->
  let e := E TRANSLATION a o in let f := fapp pt p in let k := fapp rhs p in
  exists th, pg1_solve id e p rhs pt = Some (true, [[(id, th)]]) /\
    forall t, dist (move1 e th f) k <= dist (move1 e t f) k.
Proof.
  intros id a o p rhs pt U e f k. unfold pg1_solve. eexists. split; [reflexivity|]. fold f k. cbn [e e_axis]. intro t.
  apply sq_le; try apply norm_nonneg. unfold e. rewrite !trans_dist2 by auto.
  pose proof (Rle_0_sqr (t - dot a (vsub k f))). unfold Rsqr in *. nra.
Qed.

Section PK3.
  Variables (id : nat) (a o p k : vec) (rhs pt : frame).
  Hypothesis U : unit a.
  Let f := fapp pt p.
  Let e := E ROTATION a o.
  Let delta := dist (fapp rhs p) k.
  Hypothesis NU : norm (perp a (vsub f o)) <> 0.
  Hypothesis NV : norm (perp a (vsub k o)) <> 0.
  Let al := raw_angle a (vsub f o) (vsub k o).
  Let nn := norm (perp a (vsub f o)) * norm (perp a (vsub k o)).

  Lemma nn0 : 0 < nn.
  Proof. exact (nn_pos a o p k pt NU NV). Qed.

  Lemma sq_mono' : forall x y, 0 <= x -> x <= y -> x * x <= y * y.
  Proof. intros; nra. Qed.

  Lemma order : forall s t, cos (t - al) <= cos (s - al) -> dist (move1 e s f) k <= dist (move1 e t f) k.
  Proof.
    intros s t C. apply sq_le; try apply norm_nonneg. unfold e. rewrite !pk3_dist2 by auto. fold al nn. pose proof nn0. nra.
  Qed.

  Lemma dist_snap : dist (move1 e (normalizeAngle al) f) (move1 e al f) <= kdl_eps * dist f o.
  Proof. apply (snap_move a o p pt U). pose proof (raw_range a (vsub f o) (vsub k o)). exact H. Qed.

  Lemma pk3_outside : ((forall t, delta <= dist (move1 e t f) k) \/ (forall t, dist (move1 e t f) k < delta)) ->
    exists flag, pk3_solve id e p k rhs pt = Some (flag, [[(id, normalizeAngle al)]; [(id, normalizeAngle al)]]).
  Proof.
    intro H. unfold e. rewrite pk3_unfold by auto. fold f al. 
    match goal with |- context [Rabs ?b] => set (bc := b) end.
    assert (C : forall t, dist (move1 e t f) k * dist (move1 e t f) k - delta * delta = 2 * nn * (bc - cos (t - al))) by exact (pk3_cos a o p k rhs pt U NU NV).
    pose proof nn0 as NN. assert (D0 : 0 <= delta) by apply norm_nonneg.
    assert (B : 1 <= Rabs bc).
    { destruct H as [H|H].
      - specialize (H al). specialize (C al). replace (al - al) with 0 in C by ring. rewrite cos_0 in C. pose proof (sq_mono' _ _ D0 H).
        assert (1 <= bc) by nra. rewrite Rabs_pos_eq; lra.
      - specialize (H (al + PI)). specialize (C (al + PI)). replace (al + PI - al) with PI in C by ring. rewrite cos_PI in C.
        assert (0 <= dist (move1 e (al + PI) f) k) as D1 by apply norm_nonneg. pose proof (sq_mono' _ _ D1 (Rlt_le _ _ H)).
        assert (bc <= -1) by nra. rewrite Rabs_left; lra. }
    destruct (Rltb (Rabs bc) 1) eqn:L; [apply Rltb_true in L; lra|]. rewrite andb_false_r. eauto.
  Qed.

  Lemma pk3_inner : (forall t, delta <= dist (move1 e t f) k) ->
    exists flag th, pk3_solve id e p k rhs pt = Some (flag, [[(id, th)]; [(id, th)]]) /\
      forall t, dist (move1 e th f) k <= dist (move1 e t f) k + kdl_eps * dist f o.
  Proof.
    intro H. destruct (pk3_outside (or_introl H)) as (flag & S). exists flag. eexists. split; [exact S|]. intro t.
    assert (G : dist (move1 e al f) k <= dist (move1 e t f) k).
    { apply order. replace (al - al) with 0 by ring. rewrite cos_0. apply COS_bound. }
    pose proof dist_snap. unfold dist in *. pose proof (norm_triangle3 (move1 e (normalizeAngle al) f) (move1 e al f) k). lra.
  Qed.

  (** the answer is the place farthest from where it should be *)
  Lemma pk3_outer : (forall t, dist (move1 e t f) k < delta) ->
    exists flag th, pk3_solve id e p k rhs pt = Some (flag, [[(id, th)]; [(id, th)]]) /\
      forall t, Rabs (dist (move1 e t f) k - delta) <= Rabs (dist (move1 e th f) k - delta) + kdl_eps * dist f o.
  Proof.
    intro H. destruct (pk3_outside (or_intror H)) as (flag & S). exists flag. eexists. split; [exact S|]. intro t.
    assert (G : dist (move1 e al f) k <= dist (move1 e t f) k).
    { apply order. replace (al - al) with 0 by ring. rewrite cos_0. apply COS_bound. }
    pose proof (H t). pose proof (H (normalizeAngle al)). rewrite !Rabs_left1 by lra.
    pose proof dist_snap. unfold dist in *. pose proof (norm_triangle3 (move1 e (normalizeAngle al) f) (move1 e al f) k). lra.
  Qed.
End PK3.

Section PG3.
  Variables (id : nat) (a o p k : vec) (rhs pt : frame).
  Hypothesis U : unit a.
  Let f := fapp pt p.
  Let e := E TRANSLATION a o.
  Let delta := dist (fapp rhs p) k.

  Lemma pg3_outside : (forall t, delta <= dist (move1 e t f) k) ->
    exists flag, pg3_solve id e p k rhs pt = Some (flag, [[(id, Rabs (dot a (vsub k f)))]; [(id, Rabs (dot a (vsub k f)))]]).
  Proof.
    intro H. unfold e. rewrite pg3_unfold by auto. fold f delta.
    match goal with |- context [Equal ?b 0] => set (sq2 := b) end.
    assert (B : sq2 <= 0).
    { specialize (H (dot a (vsub k f))). assert (D0 : 0 <= delta) by apply norm_nonneg. pose proof (sq_mono' _ _ D0 H) as Q.
      unfold e in Q. rewrite trans_dist2 in Q by auto. unfold sq2. lra. }
    destruct (Rltb 0 sq2) eqn:L; [apply Rltb_true in L; lra|]. rewrite andb_false_r. eauto.
  Qed.

  Lemma pg3_ahead : (forall t, delta <= dist (move1 e t f) k) -> 0 <= dot a (vsub k f) ->
    exists flag th, pg3_solve id e p k rhs pt = Some (flag, [[(id, th)]; [(id, th)]]) /\
      forall t, dist (move1 e th f) k <= dist (move1 e t f) k.
  Proof.
    intros H P. destruct (pg3_outside H) as (flag & S). exists flag. eexists. split; [exact S|]. intro t.
    apply sq_le; try apply norm_nonneg. unfold e. rewrite !trans_dist2 by auto. rewrite Rabs_pos_eq by auto.
    pose proof (Rle_0_sqr (t - dot a (vsub k f))). unfold Rsqr in *. nra.
  Qed.

  Lemma pg3_behind : (forall t, delta <= dist (move1 e t f) k) -> dot a (vsub k f) < 0 ->
    exists flag th, pg3_solve id e p k rhs pt = Some (flag, [[(id, th)]; [(id, th)]]) /\ th = - dot a (vsub k f) /\
      2 * th <= dist (move1 e th f) k.
  Proof.
    intros H P. destruct (pg3_outside H) as (flag & S). rewrite Rabs_left in S by auto. exists flag. eexists. split; [exact S|]. split; [reflexivity|].
    apply sq_le; [lra | apply norm_nonneg |]. unfold e. rewrite trans_dist2 by auto. set (g := dot a (vsub k f)).
    assert (0 <= dot (vsub k f) (vsub k f) - g * g). { unfold g. rewrite <- perp_norm2 by auto. apply dot_self_nonneg. }
    replace (2 * - g * (2 * - g)) with ((- g - g) * (- g - g)) by ring. lra.
  Qed.
End PG3.

Ltac pts := unfold ftrans, fapp, mid; vunf; cbn.

Lemma perp_x : norm (perp (V 0 0 1) (vsub (V 1 0 0) vzero)) = 1.
Proof. replace (perp (V 0 0 1) (vsub (V 1 0 0) vzero)) with (V 1 0 0) by (unfold perp; vring). apply unit_norm, unit_ex. Qed.
Lemma target_x : fapp (ftrans (V 5 0 0)) (V 1 0 0) = V 6 0 0.
Proof. pts. f_equal; ring. Qed.
Lemma dist_5 : dist (V 6 0 0) (V 1 0 0) = 5.
Proof. unfold dist, norm. replace (dot _ _) with (5 * 5) by (vunf; cbn; ring). apply sqrt_square; lra. Qed.
Lemma rot_near : forall t, dist (move1 (E ROTATION (V 0 0 1) vzero) t (V 1 0 0)) (V 1 0 0) <= 2.
Proof.
  intro t. apply sq_le; [apply norm_nonneg | lra |]. rewrite pk3_dist2 by apply unit_ez. rewrite perp_x.
  replace (vsub (V 1 0 0) (V 1 0 0)) with vzero by vring. rewrite dot_zero_r. pose proof (COS_bound (t - raw_angle (V 0 0 1) (vsub (V 1 0 0) vzero) (vsub (V 1 0 0) vzero))). lra.
Qed.

Lemma one_nearest_ex :
  (exists id e p k rhs pt flag th t, unit (e_axis e) /\ e_motion e = ROTATION /\ rigid rhs /\ rigid pt /\
    pk3_solve id e p k rhs pt = Some (flag, [[(id, th)]; [(id, th)]]) /\
    Rabs (dist (move1 e t (fapp pt p)) k - dist (fapp rhs p) k) + 1 <= Rabs (dist (move1 e th (fapp pt p)) k - dist (fapp rhs p) k)) /\
  (exists id e p k rhs pt flag th t, unit (e_axis e) /\ e_motion e = TRANSLATION /\ rigid rhs /\ rigid pt /\
    pg3_solve id e p k rhs pt = Some (flag, [[(id, th)]; [(id, th)]]) /\
    Rabs (dist (move1 e t (fapp pt p)) k - dist (fapp rhs p) k) + 1 <= Rabs (dist (move1 e th (fapp pt p)) k - dist (fapp rhs p) k)).
Proof.
  split.
  - destruct (pk3_outer 0 (V 0 0 1) vzero (V 1 0 0) (V 1 0 0) (ftrans (V 5 0 0)) fid unit_ez) as (flag & th & S & W).
    { rewrite fapp_id, perp_x. lra. } { rewrite perp_x. lra. }
    { intro t. rewrite fapp_id, target_x, dist_5. pose proof (rot_near t). lra. }
    pose proof (W 0) as W0.
    (* the answer stays where it is, half a turn is farther *)
    set (e := E ROTATION (V 0 0 1) vzero) in *. rewrite fapp_id, target_x, dist_5 in W0.
    assert (M0 : dist (move1 e 0 (V 1 0 0)) (V 1 0 0) = 0).
    { unfold e. rewrite move_rot by apply unit_ez. unfold dist. rewrite <- RotZ_Rot2. unfold norm. replace (dot _ _) with 0; [apply sqrt_0|].
      unfold RotZ; vunf. cbn. rewrite sin_0, cos_0. ring. }
    assert (MP : dist (move1 e PI (V 1 0 0)) (V 1 0 0) = 2).
    { unfold e. rewrite move_rot by apply unit_ez. unfold dist. rewrite <- RotZ_Rot2. unfold norm. replace (dot _ _) with (2 * 2); [apply sqrt_square; lra|].
      unfold RotZ; vunf. cbn. rewrite sin_PI, cos_PI. ring. }
    assert (D1 : dist (V 1 0 0) vzero = 1).
    { unfold dist, norm. replace (dot _ _) with 1 by (vunf; cbn; ring). apply sqrt_1. }
    rewrite M0, D1 in W0. rewrite (Rabs_left (0 - 5)) in W0 by lra. unfold kdl_eps in W0.
    exists 0%nat, e, (V 1 0 0), (V 1 0 0), (ftrans (V 5 0 0)), fid, flag, th, PI.
    split; [apply unit_ez|]. split; [reflexivity|]. split; [apply rigid_trans|]. split; [apply rigid_id|]. split; [exact S|].
    rewrite fapp_id, target_x, dist_5, MP. rewrite (Rabs_left (2 - 5)) by lra. lra.
  - set (k := V 2 0 (-2)).
    assert (FP : fapp (ftrans (V 3 0 (-2))) vzero = V 3 0 (-2)) by (pts; f_equal; ring).
    assert (D1 : dist (V 3 0 (-2)) k = 1).
    { unfold dist, norm, k. replace (dot _ _) with 1 by (vunf; cbn; ring). apply sqrt_1. }
    assert (DP : dot (V 0 0 1) (vsub k vzero) = -2) by (unfold k; vunf; cbn; ring).
    assert (SQ : dot (vsub k vzero) (vsub k vzero) = 8) by (unfold k; vunf; cbn; ring).
    assert (D : forall t, dist (move1 (E TRANSLATION (V 0 0 1) vzero) t vzero) k * dist (move1 (E TRANSLATION (V 0 0 1) vzero) t vzero) k = (t + 2) * (t + 2) + 4).
    { intro t. rewrite trans_dist2 by apply unit_ez. rewrite DP, SQ. ring. }
    destruct (pg3_behind 0 (V 0 0 1) vzero vzero k (ftrans (V 3 0 (-2))) fid unit_ez) as (flag & th & S & T & B).
    { intro t. rewrite fapp_id, FP, D1. apply sq_le; [lra | apply norm_nonneg |]. rewrite D. pose proof (Rle_0_sqr (t + 2)). unfold Rsqr in *. lra. }
    { rewrite fapp_id, DP. lra. }
    rewrite fapp_id, DP in T. assert (th = 2) by lra. clear T. subst th. rewrite fapp_id in B.
    exists 0%nat, (E TRANSLATION (V 0 0 1) vzero), vzero, k, (ftrans (V 3 0 (-2))), fid, flag, 2, (-2).
    split; [apply unit_ez|]. split; [reflexivity|]. split; [apply rigid_trans|]. split; [apply rigid_id|]. split; [exact S|].
    rewrite fapp_id, FP, D1.
    assert (M : dist (move1 (E TRANSLATION (V 0 0 1) vzero) (-2) vzero) k = 2).
    { assert (0 <= dist (move1 (E TRANSLATION (V 0 0 1) vzero) (-2) vzero) k) by apply norm_nonneg. apply Rle_antisym; apply sq_le; auto; try lra; rewrite D; lra. }
    rewrite M. rewrite !Rabs_pos_eq by lra. lra.
Qed.

(** ** examples of targets out of reach *)
Lemma ex_inner : unit (V 0 0 1) /\ norm (perp (V 0 0 1) (vsub (fapp fid (V 1 0 0)) vzero)) <> 0 /\ norm (perp (V 0 0 1) (vsub (V 3 0 0) vzero)) <> 0 /\
  forall t, dist (fapp (ftrans (V 3 0 0)) (V 1 0 0)) (V 3 0 0) <= dist (move1 (E ROTATION (V 0 0 1) vzero) t (fapp fid (V 1 0 0))) (V 3 0 0).
Proof.
  assert (N3 : norm (perp (V 0 0 1) (vsub (V 3 0 0) vzero)) = 3).
  { replace (perp (V 0 0 1) (vsub (V 3 0 0) vzero)) with (V 3 0 0) by (unfold perp; vring). unfold norm. replace (dot _ _) with (3 * 3) by (vunf; cbn; ring). apply sqrt_square; lra. }
  split; [apply unit_ez|]. split; [rewrite fapp_id, perp_x; lra|]. split; [rewrite N3; lra|]. intro t. rewrite fapp_id.
  replace (dist (fapp (ftrans (V 3 0 0)) (V 1 0 0)) (V 3 0 0)) with 1.
  2:{ unfold dist, norm. replace (dot _ _) with 1 by (pts; ring). symmetry. apply sqrt_1. }
  apply sq_le; [lra | apply norm_nonneg |]. rewrite pk3_dist2 by apply unit_ez. rewrite perp_x, N3.
  replace (dot (V 0 0 1) (vsub (V 1 0 0) (V 3 0 0))) with 0 by (vunf; cbn; ring).
  pose proof (COS_bound (t - raw_angle (V 0 0 1) (vsub (V 1 0 0) vzero) (vsub (V 3 0 0) vzero))). lra.
Qed.
Lemma ex_outer : forall t, dist (move1 (E ROTATION (V 0 0 1) vzero) t (fapp fid (V 1 0 0))) (V 1 0 0) < dist (fapp (ftrans (V 5 0 0)) (V 1 0 0)) (V 1 0 0).
Proof. intro t. rewrite fapp_id, target_x, dist_5. pose proof (rot_near t). lra. Qed.
Lemma ex_ahead : (forall t, dist (fapp (ftrans (V 3 0 2)) vzero) (V 2 0 2) <= dist (move1 (E TRANSLATION (V 0 0 1) vzero) t (fapp fid vzero)) (V 2 0 2)) /\
  0 <= dot (V 0 0 1) (vsub (V 2 0 2) (fapp fid vzero)).
Proof.
  rewrite fapp_id. split; [|vunf; cbn; lra]. intro t.
  replace (dist (fapp (ftrans (V 3 0 2)) vzero) (V 2 0 2)) with 1.
  2:{ unfold dist, norm. replace (dot _ _) with 1 by (pts; ring). symmetry. apply sqrt_1. }
  apply sq_le; [lra | apply norm_nonneg |]. rewrite trans_dist2 by apply unit_ez.
  replace (dot (V 0 0 1) (vsub (V 2 0 2) vzero)) with 2 by (vunf; cbn; ring).
  replace (dot (vsub (V 2 0 2) vzero) (vsub (V 2 0 2) vzero)) with 8 by (vunf; cbn; ring). pose proof (Rle_0_sqr (t - 2)). unfold Rsqr in *. lra.
Qed.
