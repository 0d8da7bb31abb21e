(** Runs of the example. *)
From Coq Require Import QArith Reals Qreals Lra Psatz List Bool Lia Arith.
From Verif Require Import Kdl KdlFacts KdlRot KdlRotFacts Screw ScrewFacts Trig TrigFacts Subproblems SubproblemSpec2 SubproblemFacts SubproblemFacts2 SubproblemFacts3 SubproblemFacts4 SubproblemFacts5 SubproblemFacts6 IkProblem IkSpec IkProblemFacts IkProblemFacts2 IkProblemFacts3 Selector SelectorFacts
  Builder BuilderSpec BuilderRun BuilderRunFacts KinRep KdlSolverFacts IkPoseSpec IkPoseFacts IkPoseFacts2 IkPoseFacts3 IkPoseFacts4 IkPoseArms IkPoseExamples SolverLoopFacts Follow FollowSpec FollowFacts FollowFacts2 FollowFacts3.
Import ListNotations.
Open Scope R_scope.
Local Notation S := Datatypes.S.

(** *** the elbow bent so that the shoulder is right beside the wrist: all the branches are exact *)
Definition b0 : R := acos (- (21500 / 32901)).
Definition s0 : R := 32901 / 100000 * sin b0.
Lemma b0_cos : cos b0 = - (21500 / 32901).
Proof. unfold b0. apply cos_acos. lra. Qed.
Lemma b0_range : 0 < b0 < PI.
Proof.
  destruct (acos_bound (- (21500 / 32901))) as [A B]. fold b0 in A, B. pose proof b0_cos as C. split.
  - destruct A as [A|A]; [exact A|]. rewrite <- A, cos_0 in C. lra.
  - destruct B as [B|B]; [exact B|]. rewrite B, cos_PI in C. lra.
Qed.
Lemma s0_pos : 0 < s0. Proof. unfold s0. pose proof (sin_gt_0 b0 (proj1 b0_range) (proj2 b0_range)). nra. Qed.
Lemma s0_sqr : 6 / 100 <= s0 * s0.
Proof. unfold s0. pose proof (cs1 b0). pose proof b0_cos as C. rewrite C in H. nra. Qed.
Ltac lspin := unfold l0, l1, l2, l3, l4, l5, lw, lx, ly, lr in *; rewrite ?spin_z, ?spin_y, ?spin_x; cbn [vx vy vz]; rewrite ?sin_PI, ?cos_PI, ?sin_0, ?cos_0; cbn [vx vy vz].

Lemma lp_ok : poe_ok lp.
Proof. exact (proj1 (built_ok 1000 l_draws left_arm lp lss true left_ok l_built)). Qed.
Definition GG : frame := asFrame l2 (- b0).
Lemma GG_rigid : rigid GG. Proof. apply asFrame_rigid. exact uZ. Qed.
Lemma GG_w : fapp GG lw = V (9 / 100) (- s0) 0.
Proof. change (fapp GG lw) with (move1 l2 (- b0) lw). lspin. rewrite cos_neg, sin_neg, b0_cos. unfold s0. apply vec_eq; cbn [vx vy vz]; field. Qed.
Lemma GG_x : fapp GG lx = V (9 / 100) (- s0) (1 / 13).
Proof. change (fapp GG lx) with (move1 l2 (- b0) lx). lspin. rewrite cos_neg, sin_neg, b0_cos. unfold s0. apply vec_eq; cbn [vx vy vz]; field. Qed.

Lemma e_elbow f l n loc : pk3_solve 2 l2 lw lr GG fid = Some (f, l) -> nth_error l n = Some loc -> f = true /\ (loc = [(2%nat, b0)] \/ loc = [(2%nat, - b0)]).
Proof.
  intros SV N. pose proof s0_pos as SP. pose proof s0_sqr as SQ. pose proof b0_range as BR. pose proof b0_cos as BC. pose proof (cs1 b0) as CS.
  assert (DE : dist (fapp GG lw) lr = s0).
  { rewrite GG_w. unfold dist, norm, lr, dot. cbn. match goal with |- sqrt ?z = _ => replace z with (s0 * s0) by ring end. apply sqrt_square. lra. }
  assert (NU : norm (perp (V 0 0 1) (vsub (fapp fid lw) (V (305 / 1000) 0 0))) = 32901 / 100000).
  { rewrite fapp_id. unfold perp, lw, norm, dot. cbn. match goal with |- sqrt ?z = _ => replace z with ((32901 / 100000) * (32901 / 100000)) by field end. apply sqrt_square. lra. }
  assert (NV : norm (perp (V 0 0 1) (vsub lr (V (305 / 1000) 0 0))) = 215 / 1000).
  { unfold perp, lr, norm, dot. cbn. match goal with |- sqrt ?z = _ => replace z with ((215 / 1000) * (215 / 1000)) by field end. apply sqrt_square. lra. }
  assert (MV : forall th, dist (move1 l2 th lw) lr * dist (move1 l2 th lw) lr = (32901 / 100000) * (32901 / 100000) + (215 / 1000) * (215 / 1000) + 2 * (32901 / 100000) * (215 / 1000) * cos th).
  { intro th. unfold dist. rewrite norm_sqr. unfold l2. rewrite spin_z. pose proof (cs1 th). unfold lw, lr, dot. cbn [vx vy vz vsub]. nra. }
  assert (SS : s0 * s0 = (32901 / 100000) * (32901 / 100000) + (215 / 1000) * (215 / 1000) + 2 * (32901 / 100000) * (215 / 1000) * cos b0) by (unfold s0; rewrite BC in *; nra).
  destruct (pk3_generic 2 (V 0 0 1) (V (305 / 1000) 0 0) lw lr GG fid uZ) as (t1 & t2 & S1 & R1 & R2 & ONLY).
  { rewrite NU. lra. } { rewrite NV. lra. }
  { rewrite NU, NV, !fapp_id. rewrite DE. replace (dot (V 0 0 1) (vsub lw lr)) with 0 by (unfold dot, lw, lr; cbn; field).
    match goal with |- Rabs ?z <= _ => assert (Z : z * (2 * (32901 / 100000) * (215 / 1000)) = (32901 / 100000) * (32901 / 100000) + (215 / 1000) * (215 / 1000) - s0 * s0) by field; generalize dependent z end.
    intros z Z. apply Rabs_le. unfold kdl_eps. rewrite SS, BC in Z. lra. }
  rewrite fapp_id in R1, R2. rewrite DE in R1, R2. change (E ROTATION (V 0 0 1) (V (305 / 1000) 0 0)) with l2 in *.
  assert (PIN : forall th, reaches_dist l2 lw lr s0 th -> th = b0 \/ th = - b0).
  { intros th (B & X & Y). assert (NE : th <> PI).
    { intros ->. specialize (MV PI). rewrite cos_PI in MV.
      assert (D : dist (move1 l2 PI lw) lr = 11401 / 100000) by (apply Rsqr_inj; [apply norm_nonneg|lra|unfold Rsqr; rewrite MV; field]).
      assert (W : dist lw (e_origin l2) = 32901 / 100000).
      { unfold dist, norm, lw, dot, l2. cbn. match goal with |- sqrt ?z = _ => replace z with ((32901 / 100000) * (32901 / 100000)) by field end. apply sqrt_square. lra. }
      rewrite D, W in Y. unfold kdl_eps in Y. rewrite Rabs_left1 in Y by nra. nra. }
    specialize (X NE). specialize (MV th). rewrite X, SS in MV. assert (CE : cos th = cos b0) by lra.
    destruct (Rle_dec 0 th) as [P|P]; [left|right].
    - apply cos_inj; lra.
    - assert (- th = b0); [|lra]. apply cos_inj; [lra|lra|]. rewrite cos_neg. exact CE. }
  rewrite S1 in SV. injection SV as <- <-. split; [reflexivity|].
  destruct n as [|[|n]]; cbn in N; [| |destruct n; discriminate]; injection N as <-.
  - destruct (PIN t1 R1) as [-> | ->]; auto.
  - destruct (PIN t2 R2) as [-> | ->]; auto.
Qed.

Lemma l_both2 : forall id1 id2 e e' t t' s s' v k rhs h f l n loc, In e (exps lp) -> In e' (exps lp) -> on_axis e k -> on_axis e' k -> cross (e_axis e) (e_axis e') <> vzero ->
  (move1 e t (move1 e' t' (fapp h v)) = fapp rhs v /\ two_sided e e' k (move1 e' t' (fapp h v)) /\ ~ on_axis e (move1 e' t' (fapp h v)) /\ settled t /\ settled t') ->
  (move1 e s (move1 e' s' (fapp h v)) = fapp rhs v /\ two_sided e e' k (move1 e' s' (fapp h v)) /\ ~ on_axis e (move1 e' s' (fapp h v)) /\ settled s /\ settled s') ->
  ~ on_axis e' (fapp h v) -> t <> s ->
  pk2_solve id1 id2 e e' v k rhs h = Some (f, l) -> nth_error l n = Some loc ->
  f = true /\ (loc = [(id1, t); (id2, t')] \/ loc = [(id1, s); (id2, s')]).
Proof.
  intros id1 id2 e e' t t' s s' v k rhs h f l n loc I I' O O' C (M1 & T1 & N1 & A1 & B1) (M2 & T2 & N2 & A2 & B2) NO NE SV NT.
  pose proof (wrist_axes l0 l1 l2 l3 l4 l5 lt lr lw lx ly lp_ok l_arm) as UX.
  destruct (through l0 l1 l2 l3 l4 l5 lt lr lw lx ly lp_ok l_arm e k I O) as (c & E1).
  destruct (through l0 l1 l2 l3 l4 l5 lt lr lw lx ly lp_ok l_arm e' k I' O') as (c' & E2).
  pose proof (crossing l0 l1 l2 l3 l4 l5 lt lr lw lx ly lp_ok l_arm e e' I I' C) as CR.
  assert (OFF : forall d z, In d (exps lp) -> on_axis d k -> ~ on_axis d z -> perp (e_axis d) (vsub z k) <> vzero).
  { intros d z J (u & K) NOd. destruct (UX d J) as [Ud _]. pose proof (off_axis d z Ud NOd) as X. intro Q. apply X.
    replace (vsub z (e_origin d)) with (vadd (vsub z k) (vscale u (e_axis d))) by (rewrite K; unfold point_on; destruct z, (e_origin d), (e_axis d); vlin).
    rewrite perp_add, Q, perp_axis by exact Ud. vlin. }
  destruct (UX e I) as [U _], (UX e' I') as [U' _].
  pose proof (pk2_found (e_axis e) (e_axis e') U U' CR id1 id2 c c' v k rhs h t t') as F1. cbv zeta in F1. rewrite <- E1, <- E2 in F1.
  pose proof (pk2_found (e_axis e) (e_axis e') U U' CR id1 id2 c c' v k rhs h s s') as F2. cbv zeta in F2. rewrite <- E1, <- E2 in F2.
  destruct F1 as (q1 & q2 & S1 & H1); auto. destruct F2 as (m1 & m2 & S2 & H2); auto.
  rewrite S1 in S2. assert (m1 = q1 /\ m2 = q2) as [-> ->] by (clear - S2; split; congruence). clear S2.
  rewrite S1 in SV. assert (f = true /\ l = [q1; q2]) as [-> ->] by (clear - SV; split; congruence). split; [reflexivity|].
  assert (DF : [(id1, t); (id2, t')] <> [(id1, s); (id2, s')]) by (clear - NE; congruence).
  destruct n as [|[|n]]; cbn in NT; [| |destruct n; discriminate].
  - assert (loc = q1) by (clear - NT; congruence). subst. destruct H1 as [H1|H1]; [auto|]. destruct H2 as [H2|H2]; [auto|]. exfalso. apply DF. congruence.
  - assert (loc = q2) by (clear - NT; congruence). subst. destruct H1 as [H1|H1]; [|auto]. destruct H2 as [H2|H2]; [|auto]. exfalso. apply DF. congruence.
Qed.
Lemma sided' : forall e e' k c, kdl_eps <= dot (vsub c k) (cross (e_axis e) (e_axis e')) * dot (vsub c k) (cross (e_axis e) (e_axis e')) -> dot (e_axis e) (e_axis e') = 0 -> two_sided e e' k c.
Proof. intros e e' k c H Z. right. rewrite Z. set (d := dot _ _) in *. replace (d / (1 - 0 * 0)) with d by field. exact H. Qed.
Ltac loff := match goal with |- ~ on_axis _ _ => let t := fresh in let Q := fresh in let Qx := fresh in let Qy := fresh in let Qz := fresh in
  intros (t & Q); pose proof (f_equal vx Q) as Qx; pose proof (f_equal vy Q) as Qy; pose proof (f_equal vz Q) as Qz; cbn in Qx, Qy, Qz; pose proof s0_pos; lra end.

Lemma e_shoulder : forall t2 f l n loc, t2 = b0 \/ t2 = - b0 -> pk2_solve 0 1 l0 l1 lw lr GG (asFrame l2 t2) = Some (f, l) -> nth_error l n = Some loc ->
  f = true /\ exists t0 t1, loc = [(0%nat, t0); (1%nat, t1)] /\
    ((t2 = - b0 /\ t0 = 0 /\ t1 = 0) \/ (t2 = - b0 /\ t0 = PI /\ t1 = PI) \/ (t2 = b0 /\ t0 = 0 /\ t1 = PI) \/ (t2 = b0 /\ t0 = PI /\ t1 = 0)).
Proof.
  intros t2 f l n loc C SV NT. pose proof PI_RGT_0 as PP. pose proof s0_pos as SP. pose proof s0_sqr as SQ. assert (EP : kdl_eps <= s0 * s0) by (unfold kdl_eps; lra).
  assert (I0 : In l0 (exps lp)) by (cbn; auto). assert (I1 : In l1 (exps lp)) by (cbn; auto).
  destruct l_arm as (_ & O0 & O1 & _ & _ & _ & _ & CX & _). change (on_axis l0 lr) in O0. change (on_axis l1 lr) in O1.
  destruct C as [-> | ->].
  - assert (HW : fapp (asFrame l2 b0) lw = V (9 / 100) s0 0).
    { change (fapp (asFrame l2 b0) lw) with (move1 l2 b0 lw). lspin. rewrite b0_cos. unfold s0. apply vec_eq; cbn [vx vy vz]; field. }
    destruct (l_both2 0 1 l0 l1 0 PI PI 0 lw lr GG (asFrame l2 b0) f l n loc) as [A B]; auto; rewrite ?HW, ?GG_w.
    + replace (move1 l1 PI (V (9 / 100) s0 0)) with (V (9 / 100) (- s0) 0) by (lspin; apply vec_eq; cbn [vx vy vz]; ring).
      split; [lspin; apply vec_eq; cbn [vx vy vz]; ring|]. split; [apply sided'; unfold dot, cross; cbn; [match goal with |- _ <= ?g * ?g => replace (g * g) with (s0 * s0) by field end; exact EP|ring]|]. split; [loff|]. split; [apply set_0|apply set_pi].
    + replace (move1 l1 0 (V (9 / 100) s0 0)) with (V (9 / 100) s0 0) by (lspin; apply vec_eq; cbn [vx vy vz]; ring).
      split; [lspin; apply vec_eq; cbn [vx vy vz]; ring|]. split; [apply sided'; unfold dot, cross; cbn; [match goal with |- _ <= ?g * ?g => replace (g * g) with (s0 * s0) by field end; exact EP|ring]|]. split; [loff|]. split; [apply set_pi|apply set_0].
    + loff.
    + lra.
    + split; [exact A|]. destruct B as [-> | ->]; do 2 eexists; (split; [reflexivity|]); auto 10.
  - change (asFrame l2 (- b0)) with GG in *.
    destruct (l_both2 0 1 l0 l1 0 0 PI PI lw lr GG GG f l n loc) as [A B]; auto; rewrite ?GG_w.
    + replace (move1 l1 0 (V (9 / 100) (- s0) 0)) with (V (9 / 100) (- s0) 0) by (lspin; apply vec_eq; cbn [vx vy vz]; ring).
      split; [lspin; apply vec_eq; cbn [vx vy vz]; ring|]. split; [apply sided'; unfold dot, cross; cbn; [match goal with |- _ <= ?g * ?g => replace (g * g) with (s0 * s0) by field end; exact EP|ring]|]. split; [loff|]. split; [apply set_0|apply set_0].
    + replace (move1 l1 PI (V (9 / 100) (- s0) 0)) with (V (9 / 100) s0 0) by (lspin; apply vec_eq; cbn [vx vy vz]; ring).
      split; [lspin; apply vec_eq; cbn [vx vy vz]; ring|]. split; [apply sided'; unfold dot, cross; cbn; [match goal with |- _ <= ?g * ?g => replace (g * g) with (s0 * s0) by field end; exact EP|ring]|]. split; [loff|]. split; [apply set_pi|apply set_pi].
    + loff.
    + lra.
    + split; [exact A|]. destruct B as [-> | ->]; do 2 eexists; (split; [reflexivity|]); auto 10.
Qed.

Definition linner (t0 t1 t2 : R) : frame := fmul (asFrame l0 t0) (fmul (asFrame l1 t1) (fmul (asFrame l2 t2) fid)).
Lemma linner_app : forall t0 t1 t2 v, fapp (linner t0 t1 t2) v = move1 l0 t0 (move1 l1 t1 (move1 l2 t2 v)).
Proof. intros. unfold linner. rewrite !fapp_fmul, fapp_id. reflexivity. Qed.
Lemma l_rigid : forall e t, In e (exps lp) -> rigid (asFrame e t).
Proof. intros. apply asFrame_rigid. apply (wrist_axes l0 l1 l2 l3 l4 l5 lt lr lw lx ly lp_ok l_arm). assumption. Qed.
Lemma linner_rigid : forall t0 t1 t2, rigid (linner t0 t1 t2).
Proof. intros. unfold linner. repeat apply rigid_mul; try apply rigid_id; apply l_rigid; cbn; auto. Qed.
Lemma e_wrist : forall t0 t1 t2 f l n loc,
  (t2 = - b0 /\ t0 = 0 /\ t1 = 0) \/ (t2 = - b0 /\ t0 = PI /\ t1 = PI) \/ (t2 = b0 /\ t0 = 0 /\ t1 = PI) \/ (t2 = b0 /\ t0 = PI /\ t1 = 0) ->
  pk2_solve 3 4 l3 l4 lx lw (fmul (finv (linner t0 t1 t2)) GG) fid = Some (f, l) -> nth_error l n = Some loc ->
  f = true /\ fapp (linner t0 t1 t2) lw = fapp GG lw /\ exists t3 t4, loc = [(3%nat, t3); (4%nat, t4)] /\ fapp (linner t0 t1 t2) (move1 l3 t3 (move1 l4 t4 lx)) = fapp GG lx.
Proof.
  intros t0 t1 t2 f l n loc C SV NT. pose proof PI_RGT_0 as PP.
  assert (I3 : In l3 (exps lp)) by (cbn; auto 10). assert (I4 : In l4 (exps lp)) by (cbn; auto 10).
  destruct l_arm as (_ & _ & _ & O3 & O4 & _ & _ & _ & CX & _). change (on_axis l3 lw) in O3. change (on_axis l4 lw) in O4.
  assert (HX : move1 l4 0 lx = V (63401 / 100000) 0 (1 / 13)) by (lspin; apply vec_eq; cbn [vx vy vz]; ring).
  assert (HX' : move1 l4 PI lx = V (63401 / 100000) 0 (- (1 / 13))) by (lspin; apply vec_eq; cbn [vx vy vz]; ring).
  assert (GEN : forall a b v, fapp (linner t0 t1 t2) lw = fapp GG lw -> fapp (linner t0 t1 t2) v = fapp GG lx -> move1 l3 a (V (63401 / 100000) 0 (1 / 13)) = v -> move1 l3 b (V (63401 / 100000) 0 (- (1 / 13))) = v -> settled a -> settled b -> a <> b ->
    f = true /\ fapp (linner t0 t1 t2) lw = fapp GG lw /\ exists t3 t4, loc = [(3%nat, t3); (4%nat, t4)] /\ fapp (linner t0 t1 t2) (move1 l3 t3 (move1 l4 t4 lx)) = fapp GG lx).
  { intros a b v FW FV MA MB SA SB NE.
    assert (IV : fapp (fmul (finv (linner t0 t1 t2)) GG) lx = v) by (rewrite fapp_fmul, <- FV; apply fapp_inv_l, linner_rigid).
    assert (EP : kdl_eps <= 1 / 13 * (1 / 13)) by (unfold kdl_eps; lra).
    destruct (l_both2 3 4 l3 l4 a 0 b PI lx lw (fmul (finv (linner t0 t1 t2)) GG) fid f l n loc) as [A B]; auto; rewrite ?IV, ?fapp_id.
    - rewrite HX. split; [exact MA|]. split; [apply sided'; unfold dot, cross; cbn; [match goal with |- _ <= ?g * ?g => replace (g * g) with (1 / 13 * (1 / 13)) by field end; exact EP|ring]|]. split; [loff|]. split; [exact SA|apply set_0].
    - rewrite HX'. split; [exact MB|]. split; [apply sided'; unfold dot, cross; cbn; [match goal with |- _ <= ?g * ?g => replace (g * g) with (1 / 13 * (1 / 13)) by field end; exact EP|ring]|]. split; [loff|]. split; [exact SB|apply set_pi].
    - loff.
    - split; [exact A|]. split; [exact FW|]. destruct B as [-> | ->]; do 2 eexists; (split; [reflexivity|]).
      + now rewrite HX, MA.
      + now rewrite HX', MB. }
  rewrite GG_w, GG_x in *. unfold s0 in *.
  destruct C as [(-> & -> & ->)|[(-> & -> & ->)|[(-> & -> & ->)|(-> & -> & ->)]]].
  - apply (GEN 0 PI (V (63401 / 100000) 0 (1 / 13))); rewrite ?linner_app; try (lspin; rewrite ?cos_neg, ?sin_neg, ?b0_cos; apply vec_eq; cbn [vx vy vz]; field); try apply set_0; try apply set_pi. lra.
  - apply (GEN PI 0 (V (63401 / 100000) 0 (- (1 / 13)))); rewrite ?linner_app; try (lspin; rewrite ?cos_neg, ?sin_neg, ?b0_cos; apply vec_eq; cbn [vx vy vz]; field); try apply set_0; try apply set_pi. lra.
  - apply (GEN PI 0 (V (63401 / 100000) 0 (- (1 / 13)))); rewrite ?linner_app; try (lspin; rewrite ?cos_neg, ?sin_neg, ?b0_cos; apply vec_eq; cbn [vx vy vz]; field); try apply set_0; try apply set_pi. lra.
  - apply (GEN 0 PI (V (63401 / 100000) 0 (1 / 13))); rewrite ?linner_app; try (lspin; rewrite ?cos_neg, ?sin_neg, ?b0_cos; apply vec_eq; cbn [vx vy vz]; field); try apply set_0; try apply set_pi. lra.
Qed.
Lemma e_roll : forall B f l, rigid B -> fapp B lw = fapp GG lw -> fapp B lx = fapp GG lx -> pk1_solve 5 l5 ly (fmul (finv B) GG) fid = Some (f, l) -> f = true.
Proof.
  intros B f l RB BW BX SV. set (C := fmul (finv B) GG) in *.
  assert (RC : rigid C) by (apply rigid_mul; [apply rigid_inv; exact RB|exact GG_rigid]).
  assert (CW : fapp C lw = lw) by (unfold C; rewrite fapp_fmul, <- BW; apply fapp_inv_l; exact RB).
  assert (CX : fapp C lx = lx) by (unfold C; rewrite fapp_fmul, <- BX; apply fapp_inv_l; exact RB).
  assert (U : unit (V 0 0 1)) by exact uZ.
  set (u := vsub ly lw). set (v := vsub (fapp C ly) lw).
  assert (MV : v = mv (fM C) u) by (unfold v, u; rewrite <- CW at 1; apply fapp_sub).
  assert (MZ : mv (fM C) (V 0 0 1) = V 0 0 1).
  { assert (Z : mv (fM C) (vsub lx lw) = vsub lx lw) by (rewrite <- fapp_sub, CX, CW; reflexivity).
    replace (V 0 0 1) with (vscale 13 (vsub lx lw)) by (apply vec_eq; cbn; field). rewrite mv_scale, Z. reflexivity. }
  assert (D1 : dot (V 0 0 1) u = dot (V 0 0 1) v).
  { rewrite MV. transitivity (dot (mv (fM C) (V 0 0 1)) (mv (fM C) u)); [symmetry; apply dot_rot; exact RC|now rewrite MZ]. }
  assert (D2 : dot u u = dot v v) by (rewrite MV, dot_rot; auto).
  pose proof (raw_angle_rot _ u v U D1 D2) as RA.
  destruct (pk1_complete 5 (V 0 0 1) lw ly C fid (raw_angle (V 0 0 1) u v) U) as (th & S & _).
  { rewrite fapp_id, move_rot by exact U. fold u. rewrite RA. unfold v. apply vec_eq; cbn; ring. }
  change (E ROTATION (V 0 0 1) lw) with l5 in S. rewrite S in SV. clear - SV. congruence.
Qed.
(** the pose with the elbow at that angle *)
Definition e_q : list R := [0; 0; 0; b0; 0; 0].
Lemma e_goal st : evaluate left_arm e_q = Some st -> IkSpec.goal lp true st = GG.
Proof.
  intro EV. destruct (built_ok 1000 l_draws left_arm lp lss true left_ok l_built) as [_ E].
  pose proof (fk_reverse left_arm e_q st left_ok EV) as RV.
  assert (EL : evaluate lp (rev_neg e_q) = Some (finv st)) by (rewrite E; exact RV).
  rewrite evaluate_some in EL by reflexivity. assert (INJ : forall (A : Type) (a b : A), Some a = Some b -> a = b) by (intros; congruence). apply INJ in EL. clear INJ RV E.
  cbn [exps lp rev_neg e_q rev map app] in EL.
  unfold IkSpec.goal. rewrite <- EL. rewrite fmul_assoc, fmul_inv_r by (exact (proj2 lp_ok)). rewrite fmul_id_r.
  unfold eval_terms. cbn [combine fold_left fst snd]. replace (- 0) with 0 by ring. rewrite !asFrame_0 by (exact uX || exact uY || exact uZ). rewrite !fmul_id_r, !fmul_id_l. reflexivity.
Qed.
Lemma e_reachable st : evaluate left_arm e_q = Some st -> exists cands, ik_solve lp (map sub_step lss) true st = Some (true, cands).
Proof.
  intro EV. destruct (built_defined 1000 l_draws left_arm lp lss true lr lw lx ly st left_ok l_built l_arm eq_refl) as (flag & cands & SV).
  exists cands. enough (flag = true) by (subst flag; exact SV). unfold lss in SV.
  assert (E : map sub_step (wrist_steps (exps lp) lr lw lx ly) = map fst (problem_steps (wrist_steps (exps lp) lr lw lx ly))) by (unfold problem_steps; now rewrite map_map). rewrite E in SV.
  pose proof (wrist_steps_ok l0 l1 l2 l3 l4 l5 lt lr lw lx ly) as OK.
  pose proof (wrist_in_order l0 l1 l2 l3 l4 l5 lt lr lw lx ly) as IO.
  destruct (solve_own lp true st lp_ok _ _ _ OK ltac:(discriminate) IO SV) as (bs & FB & LB & DV). rewrite FB.
  apply forallb_forall. intros b J. apply In_nth with (d := true) in J. destruct J as (c & LC & NB). rewrite LB in LC.
  destruct (nth_error cands c) as [q|] eqn:N; [|apply nth_error_None in N; lia]. specialize (DV c q N). rewrite NB in DV. clear NB.
  match type of DV with derived _ _ _ _ _ ?ch _ _ => assert (LK : exists k0 k1 k2 k3, ch = [k0; k1; k2; k3]) by (do 4 eexists; reflexivity) end.
  destruct LK as (k0 & k1 & k2 & k3 & LK). rewrite LK in DV. clear LK.
  apply (wrist_path l0 l1 l2 l3 l4 l5 lt lr lw lx ly true st) in DV. cbv zeta in DV.
  destruct DV as (g0 & m0 & loc0 & g1 & m1 & loc1 & g2 & m2 & loc2 & g3 & m3 & loc3 & V0 & M0 & V1 & M1 & V2 & M2 & V3 & M3 & _ & ->).
  fold lp in V0, V1, V2, V3. rewrite (e_goal st EV) in V0, V1, V2, V3.
  destruct (e_elbow _ _ _ _ V0 M0) as [-> C0].
  assert (exists t2, loc0 = [(2%nat, t2)] /\ (t2 = b0 \/ t2 = - b0)) as (t2 & -> & C2) by (destruct C0 as [-> | ->]; eauto).
  assert (E1 : displ lp true (assign lp true [(2%nat, t2)] (repeat 0 6)) 2 = asFrame l2 t2) by (change (asFrame l2 (- - t2) = asFrame l2 t2); now rewrite Ropp_involutive).
  rewrite E1 in V1.
  destruct (e_shoulder _ _ _ _ _ C2 V1 M1) as (-> & t0 & t1 & -> & C1).
  assert (E2 : product lp true (assign lp true [(0%nat, t0); (1%nat, t1)] (assign lp true [(2%nat, t2)] (repeat 0 6))) 0 3 = linner t0 t1 t2).
  { change (fmul (asFrame l0 (- - t0)) (fmul (asFrame l1 (- - t1)) (fmul (asFrame l2 (- - t2)) fid)) = linner t0 t1 t2). rewrite !Ropp_involutive. reflexivity. }
  rewrite E2 in V2.
  destruct (e_wrist _ _ _ _ _ _ _ C1 V2 M2) as (-> & FW & t3 & t4 & -> & FX).
  assert (E3 : product lp true (assign lp true [(3%nat, t3); (4%nat, t4)] (assign lp true [(0%nat, t0); (1%nat, t1)] (assign lp true [(2%nat, t2)] (repeat 0 6)))) 0 5 =
    fmul (asFrame l0 t0) (fmul (asFrame l1 t1) (fmul (asFrame l2 t2) (fmul (asFrame l3 t3) (fmul (asFrame l4 t4) fid))))).
  { change (fmul (asFrame l0 (- - t0)) (fmul (asFrame l1 (- - t1)) (fmul (asFrame l2 (- - t2)) (fmul (asFrame l3 (- - t3)) (fmul (asFrame l4 (- - t4)) fid)))) =
      fmul (asFrame l0 t0) (fmul (asFrame l1 t1) (fmul (asFrame l2 t2) (fmul (asFrame l3 t3) (fmul (asFrame l4 t4) fid))))). rewrite !Ropp_involutive. reflexivity. }
  rewrite E3 in V3. match type of V3 with pk1_solve _ _ _ (fmul (finv ?b) _) _ = _ => set (B := b) in V3 end.
  assert (BB : forall v, fapp B v = fapp (linner t0 t1 t2) (move1 l3 t3 (move1 l4 t4 v))).
  { intro v. unfold B. rewrite linner_app, !fapp_fmul, fapp_id. reflexivity. }
  assert (g3 = true) as ->; [|reflexivity]. eapply (e_roll B); [| | |exact V3].
  - unfold B. repeat apply rigid_mul; try apply rigid_id; apply l_rigid; cbn; auto 10.
  - rewrite BB. replace (move1 l4 t4 lw) with lw by (lspin; apply vec_eq; cbn [vx vy vz]; ring). replace (move1 l3 t3 lw) with lw by (lspin; apply vec_eq; cbn [vx vy vz]; ring). exact FW.
  - rewrite BB. exact FX.
Qed.
