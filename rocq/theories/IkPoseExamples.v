(** Concrete arms for the theorems about the poses of the candidates. *)
From Coq Require Import QArith Reals Qreals Lra List Bool Lia Arith.
From Verif Require Import Kdl KdlFacts Screw ScrewFacts Trig TrigFacts Subproblems SubproblemSpec2 SubproblemFacts SubproblemFacts2 SubproblemFacts3 SubproblemFacts4 SubproblemFacts5 SubproblemFacts6
  IkProblem IkSpec IkProblemFacts IkProblemFacts2 IkProblemFacts3 Builder BuilderSpec IkPoseSpec IkPoseFacts IkPoseFacts2 IkPoseFacts3 BuilderRun BuilderRunFacts IkPoseArms.
Import ListNotations.
Open Scope R_scope.
Local Notation S := Datatypes.S.

(** shoulder at the origin with axes z and y, elbow one metre above it, wrist one metre in front of the elbow *)
Definition x0 := E ROTATION (V 0 0 1) (V 0 0 0).
Definition x1 := E ROTATION (V 0 1 0) (V 0 0 0).
Definition x2 := E ROTATION (V 0 1 0) (V 0 0 1).
Definition x3 := E ROTATION (V 0 1 0) (V 1 0 1).
Definition x4 := E ROTATION (V 1 0 0) (V 1 0 1).
Definition x5 := E ROTATION (V 0 0 1) (V 1 0 1).
Definition xt := ftrans (V 1 0 0).
Definition xp := P [x0; x1; x2; x3; x4; x5] xt.
Definition xr := V 0 0 0.
Definition xw := V 1 0 1.
Definition xx := V 1 0 0.
Definition xy := V 0 0 0.
Local Notation W := (wrist_steps (exps xp) xr xw xx xy).

Lemma x_ok : poe_ok xp.
Proof.
  split; [|apply rigid_trans]. cbn [exps xp]. repeat apply Forall_cons; try apply Forall_nil; cbn; unfold unit, dot; cbn; ring.
Qed.
Lemma x_arm : wrist_arm (exps xp) xr xw xx xy.
Proof.
  cbn. split; [unfold no_translation; repeat constructor|].
  assert (ON : forall e v t, v = point_on e t -> on_axis e v) by (intros e v t H; exists t; exact H).
  split; [apply (ON _ _ 0); unfold point_on; apply vec_eq; cbn; ring|]. split; [apply (ON _ _ 0); unfold point_on; apply vec_eq; cbn; ring|].
  split; [apply (ON _ _ 0); unfold point_on; apply vec_eq; cbn; ring|]. split; [apply (ON _ _ 0); unfold point_on; apply vec_eq; cbn; ring|].
  split; [apply (ON _ _ 0); unfold point_on; apply vec_eq; cbn; ring|]. split; [apply (ON _ _ (-1)); unfold point_on; apply vec_eq; cbn; ring|].
  split; [intro Q; apply (f_equal vx) in Q; cbn in Q; lra|].
  split; [intro Q; apply (f_equal vz) in Q; cbn in Q; lra|].
  split; [intros (t & Q); apply (f_equal vx) in Q; cbn in Q; lra|].
  split; [intros (t & Q); apply (f_equal vz) in Q; cbn in Q; lra|].
  split; [intros (t & Q); apply (f_equal vz) in Q; cbn in Q; lra|].
  intros (t & Q); apply (f_equal vx) in Q; cbn in Q; lra.
Qed.

(** rotations about the axes *)
Lemma spin_z : forall o t v, move1 (E ROTATION (V 0 0 1) o) t v =
  V (vx o + (vx v - vx o) * cos t - (vy v - vy o) * sin t) (vy o + (vx v - vx o) * sin t + (vy v - vy o) * cos t) (vz v).
Proof. intros. rewrite move_rot by (unfold unit, dot; cbn; ring). unfold Rot2. apply vec_eq; cbn; ring. Qed.
Lemma spin_y : forall o t v, move1 (E ROTATION (V 0 1 0) o) t v =
  V (vx o + (vx v - vx o) * cos t + (vz v - vz o) * sin t) (vy v) (vz o - (vx v - vx o) * sin t + (vz v - vz o) * cos t).
Proof. intros. rewrite move_rot by (unfold unit, dot; cbn; ring). unfold Rot2. apply vec_eq; cbn; ring. Qed.
Lemma spin_x : forall o t v, move1 (E ROTATION (V 1 0 0) o) t v =
  V (vx v) (vy o + (vy v - vy o) * cos t - (vz v - vz o) * sin t) (vz o + (vy v - vy o) * sin t + (vz v - vz o) * cos t).
Proof. intros. rewrite move_rot by (unfold unit, dot; cbn; ring). unfold Rot2. apply vec_eq; cbn; ring. Qed.
Lemma sin_mh : sin (- (PI / 2)) = -1. Proof. rewrite sin_neg, sin_PI2. ring. Qed.
Lemma cos_mh : cos (- (PI / 2)) = 0. Proof. rewrite cos_neg, cos_PI2. ring. Qed.
Ltac spin := unfold x0, x1, x2, x3, x4, x5, xw, xx, xy, xr in *; rewrite ?spin_z, ?spin_y, ?spin_x; cbn [vx vy vz];
  rewrite ?sin_mh, ?cos_mh, ?sin_PI2, ?cos_PI2, ?sin_PI, ?cos_PI, ?sin_0, ?cos_0; cbn [vx vy vz].

Lemma eps_lt : kdl_eps < 1 / 2. Proof. unfold kdl_eps; lra. Qed.
Lemma set_0 : settled 0. Proof. right. rewrite Rabs_R0. pose proof PI_RGT_0. pose proof eps_lt. pose proof PI2_1. lra. Qed.
Lemma set_pi : settled PI. Proof. left. reflexivity. Qed.
Lemma set_h : settled (PI / 2).
Proof. right. pose proof PI_RGT_0. pose proof eps_lt. pose proof PI2_1. rewrite Rabs_pos_eq; lra. Qed.
Lemma set_mh : settled (- (PI / 2)).
Proof. right. rewrite Rabs_Ropp. pose proof PI_RGT_0. pose proof eps_lt. pose proof PI2_1. rewrite Rabs_pos_eq; lra. Qed.

(** joint values met by the hypotheses of the completeness theorem *)
Definition xq : list R := [PI / 2; 0; 0; PI / 2; 0; PI / 2].
Lemma x_regular : regular (exps xp) xr xw xx xq.
Proof.
  cbn [regular exps xp xq]. split.
  { intros t I. cbn in I. pose proof set_0. pose proof set_h. repeat destruct I as [<-|I]; auto. destruct I. }
  cbv zeta. replace (move1 x2 0 xw) with (V 1 0 1) by (spin; apply vec_eq; cbn; ring).
  replace (move1 x1 0 (V 1 0 1)) with (V 1 0 1) by (spin; apply vec_eq; cbn; ring).
  replace (move1 x4 0 xx) with (V 1 0 0) by (spin; apply vec_eq; cbn; ring).
  pose proof eps_lt as EP. pose proof kdl_eps_pos as EP0.
  split; [|split; [|split; [|split; [|split]]]].
  - unfold cos_between. replace (dot _ _) with 0 by (unfold perp, dot; cbn; ring). unfold Rdiv. rewrite Rmult_0_l, Rabs_R0. lra.
  - intros (t & Q); apply (f_equal vx) in Q; cbn in Q; lra.
  - intros (t & Q); apply (f_equal vx) in Q; cbn in Q; lra.
  - right. cbv zeta. match goal with |- _ <= ?g * ?g => replace g with (-1) by (unfold dot, cross; cbn; field) end. lra.
  - intros (t & Q); apply (f_equal vz) in Q; cbn in Q; lra.
  - right. cbv zeta. match goal with |- _ <= ?g * ?g => replace g with 1 by (unfold dot, cross; cbn; field) end. lra.
Qed.

(** ** A solved problem reported reachable: the target is the pose at rest *)
Lemma both2 : forall id1 id2 e e' t t' s s' v k rhs h f l n loc, In e (exps xp) -> In e' (exps xp) -> on_axis e k -> on_axis e' k -> cross (e_axis e) (e_axis e') <> vzero ->
  (move1 e t (move1 e' t' (fapp h v)) = fapp rhs v /\ two_sided e e' k (move1 e' t' (fapp h v)) /\ ~ on_axis e (move1 e' t' (fapp h v)) /\ settled t /\ settled t') ->
  (move1 e s (move1 e' s' (fapp h v)) = fapp rhs v /\ two_sided e e' k (move1 e' s' (fapp h v)) /\ ~ on_axis e (move1 e' s' (fapp h v)) /\ settled s /\ settled s') ->
  ~ on_axis e' (fapp h v) -> t <> s ->
  pk2_solve id1 id2 e e' v k rhs h = Some (f, l) -> nth_error l n = Some loc ->
  f = true /\ (loc = [(id1, t); (id2, t')] \/ loc = [(id1, s); (id2, s')]).
Proof.
  intros id1 id2 e e' t t' s s' v k rhs h f l n loc I I' O O' C (M1 & T1 & N1 & A1 & B1) (M2 & T2 & N2 & A2 & B2) NO NE SV NT.
  pose proof (wrist_axes x0 x1 x2 x3 x4 x5 xt xr xw xx xy x_ok x_arm) as UX.
  destruct (through x0 x1 x2 x3 x4 x5 xt xr xw xx xy x_ok x_arm e k I O) as (c & E1).
  destruct (through x0 x1 x2 x3 x4 x5 xt xr xw xx xy x_ok x_arm e' k I' O') as (c' & E2).
  pose proof (crossing x0 x1 x2 x3 x4 x5 xt xr xw xx xy x_ok x_arm e e' I I' C) as CR.
  assert (OFF : forall d z, In d (exps xp) -> on_axis d k -> ~ on_axis d z -> perp (e_axis d) (vsub z k) <> vzero).
  { intros d z J (u & K) NOd. destruct (UX d J) as [Ud _]. pose proof (off_axis d z Ud NOd) as X. intro Q. apply X.
    replace (vsub z (e_origin d)) with (vadd (vsub z k) (vscale u (e_axis d))) by (rewrite K; unfold point_on; destruct z, (e_origin d), (e_axis d); vlin).
    rewrite perp_add, Q, perp_axis by exact Ud. vlin. }
  destruct (UX e I) as [U _], (UX e' I') as [U' _].
  pose proof (pk2_found (e_axis e) (e_axis e') U U' CR id1 id2 c c' v k rhs h t t') as F1. cbv zeta in F1. rewrite <- E1, <- E2 in F1.
  pose proof (pk2_found (e_axis e) (e_axis e') U U' CR id1 id2 c c' v k rhs h s s') as F2. cbv zeta in F2. rewrite <- E1, <- E2 in F2.
  destruct F1 as (l1 & l2 & S1 & H1); auto. destruct F2 as (m1 & m2 & S2 & H2); auto.
  rewrite S1 in S2. assert (m1 = l1 /\ m2 = l2) as [-> ->] by (clear - S2; split; congruence). clear S2.
  rewrite S1 in SV. assert (f = true /\ l = [l1; l2]) as [-> ->] by (clear - SV; split; congruence). split; [reflexivity|].
  assert (DF : [(id1, t); (id2, t')] <> [(id1, s); (id2, s')]) by (clear - NE; congruence).
  destruct n as [|[|n]]; cbn in NT; [| |destruct n; discriminate].
  - assert (loc = l1) by (clear - NT; congruence). subst. destruct H1 as [H1|H1]; [auto|]. destruct H2 as [H2|H2]; [auto|]. exfalso. apply DF. congruence.
  - assert (loc = l2) by (clear - NT; congruence). subst. destruct H1 as [H1|H1]; [|auto]. destruct H2 as [H2|H2]; [|auto]. exfalso. apply DF. congruence.
Qed.

Lemma sided : forall e e' k c, Rabs (dot (vsub c k) (cross (e_axis e) (e_axis e'))) = 1 -> dot (e_axis e) (e_axis e') = 0 -> two_sided e e' k c.
Proof.
  intros e e' k c H Z. right. rewrite Z. set (d := dot _ _) in *. replace (d / (1 - 0 * 0)) with d by field.
  pose proof eps_lt. replace (d * d) with (Rabs d * Rabs d) by (rewrite <- Rabs_mult; apply Rabs_pos_eq; apply Rle_0_sqr). rewrite H. lra.
Qed.
Ltac off := match goal with |- ~ on_axis _ _ => let t := fresh in let Q := fresh in let Qx := fresh in let Qy := fresh in let Qz := fresh in
  intros (t & Q); pose proof (f_equal vx Q) as Qx; pose proof (f_equal vy Q) as Qy; pose proof (f_equal vz Q) as Qz; cbn in Qx, Qy, Qz; lra end.
Ltac on t := exists t; unfold point_on; apply vec_eq; cbn; ring.

Lemma x_elbow : forall f l n loc, pk3_solve 2 x2 xw xr fid fid = Some (f, l) -> nth_error l n = Some loc ->
  f = true /\ (loc = [(2%nat, 0)] \/ loc = [(2%nat, PI)]).
Proof.
  intros f l n loc SV NT.
  assert (F : forall t, t = 0 \/ t = PI -> exists t1 t2, pk3_solve 2 x2 xw xr fid fid = Some (true, [[(2%nat, t1)]; [(2%nat, t2)]]) /\ (t1 = t \/ t2 = t)).
  { intros t C. apply pk3_found; rewrite ?fapp_id.
    - unfold unit, dot; cbn; ring.
    - intro Q. apply norm_zero in Q. apply (f_equal vx) in Q. cbn in Q. lra.
    - intro Q. apply norm_zero in Q. apply (f_equal vz) in Q. cbn in Q. lra.
    - unfold dist. apply norm_eq_iff. destruct C as [-> | ->]; spin; unfold dot; cbn; ring.
    - replace (raw_angle (V 0 1 0) (vsub xw (V 0 0 1)) (vsub xr (V 0 0 1))) with (PI / 2).
      + pose proof eps_lt. pose proof kdl_eps_pos.
        replace (cos (t - PI / 2)) with (sin t) by (rewrite cos_minus, cos_PI2, sin_PI2; ring).
        destruct C as [-> | ->]; rewrite ?sin_0, ?sin_PI, Rabs_R0; lra.
      + unfold raw_angle. replace (dot (V 0 1 0) _) with 1 by (unfold dot, cross, perp, dot; cbn; ring).
        replace (dot (perp _ _) _) with 0 by (unfold dot, perp, dot; cbn; ring). symmetry. apply atan2_up. lra.
    - destruct C as [-> | ->]; [apply set_0|apply set_pi]. }
  destruct (F 0 ltac:(auto)) as (t1 & t2 & S1 & H1). destruct (F PI ltac:(auto)) as (u1 & u2 & S2 & H2).
  rewrite S1 in S2. assert (u1 = t1 /\ u2 = t2) as [-> ->] by (clear - S2; split; congruence). clear S2.
  rewrite S1 in SV. assert (f = true /\ l = [[(2%nat, t1)]; [(2%nat, t2)]]) as [-> ->] by (clear - SV; split; congruence). split; [reflexivity|].
  pose proof PI_RGT_0.
  destruct n as [|[|n]]; cbn in NT; [| |destruct n; discriminate].
  - assert (loc = [(2%nat, t1)]) by (clear - NT; congruence). subst. destruct H1 as [<-|H1]; [auto|]. destruct H2 as [<-|H2]; [auto|]. lra.
  - assert (loc = [(2%nat, t2)]) by (clear - NT; congruence). subst. destruct H1 as [H1|<-]; [|auto]. destruct H2 as [H2|<-]; [|auto]. lra.
Qed.

Lemma x_shoulder : forall t2 f l n loc, t2 = 0 \/ t2 = PI -> pk2_solve 0 1 x0 x1 xw xr fid (asFrame x2 t2) = Some (f, l) -> nth_error l n = Some loc ->
  f = true /\ exists t0 t1, loc = [(0%nat, t0); (1%nat, t1)] /\
    ((t2 = 0 /\ t0 = 0 /\ t1 = 0) \/ (t2 = 0 /\ t0 = PI /\ t1 = - (PI / 2)) \/ (t2 = PI /\ t0 = 0 /\ t1 = PI / 2) \/ (t2 = PI /\ t0 = PI /\ t1 = 0)).
Proof.
  intros t2 f l n loc C SV NT. pose proof PI_RGT_0 as PP.
  assert (I0 : In x0 (exps xp)) by (cbn; auto). assert (I1 : In x1 (exps xp)) by (cbn; auto).
  assert (O0 : on_axis x0 xr) by (on 0). assert (O1 : on_axis x1 xr) by (on 0).
  assert (CX : cross (e_axis x0) (e_axis x1) <> vzero) by (intro Q; apply (f_equal vx) in Q; cbn in Q; lra).
  destruct C as [-> | ->].
  - assert (HW : fapp (asFrame x2 0) xw = V 1 0 1) by (change (fapp (asFrame x2 0) xw) with (move1 x2 0 xw); spin; apply vec_eq; cbn; ring).
    destruct (both2 0 1 x0 x1 0 0 PI (- (PI / 2)) xw xr fid (asFrame x2 0) f l n loc) as [A B]; auto; rewrite ?HW, ?fapp_id.
    + replace (move1 x1 0 (V 1 0 1)) with (V 1 0 1) by (spin; apply vec_eq; cbn; ring).
      split; [spin; apply vec_eq; cbn; ring|]. split; [apply sided; unfold dot, cross; cbn; [rewrite Rabs_left; lra|ring]|]. split; [off|]. split; apply set_0.
    + replace (move1 x1 (- (PI / 2)) (V 1 0 1)) with (V (-1) 0 1) by (spin; apply vec_eq; cbn; ring).
      split; [spin; apply vec_eq; cbn; ring|]. split; [apply sided; unfold dot, cross; cbn; [rewrite Rabs_pos_eq; lra|ring]|]. split; [off|]. split; [apply set_pi|apply set_mh].
    + off.
    + lra.
    + split; [exact A|]. destruct B as [-> | ->]; do 2 eexists; (split; [reflexivity|]); auto 10.
  - assert (HW : fapp (asFrame x2 PI) xw = V (-1) 0 1) by (change (fapp (asFrame x2 PI) xw) with (move1 x2 PI xw); spin; apply vec_eq; cbn; ring).
    destruct (both2 0 1 x0 x1 0 (PI / 2) PI 0 xw xr fid (asFrame x2 PI) f l n loc) as [A B]; auto; rewrite ?HW, ?fapp_id.
    + replace (move1 x1 (PI / 2) (V (-1) 0 1)) with (V 1 0 1) by (spin; apply vec_eq; cbn; ring).
      split; [spin; apply vec_eq; cbn; ring|]. split; [apply sided; unfold dot, cross; cbn; [rewrite Rabs_left; lra|ring]|]. split; [off|]. split; [apply set_0|apply set_h].
    + replace (move1 x1 0 (V (-1) 0 1)) with (V (-1) 0 1) by (spin; apply vec_eq; cbn; ring).
      split; [spin; apply vec_eq; cbn; ring|]. split; [apply sided; unfold dot, cross; cbn; [rewrite Rabs_pos_eq; lra|ring]|]. split; [off|]. split; [apply set_pi|apply set_0].
    + off.
    + lra.
    + split; [exact A|]. destruct B as [-> | ->]; do 2 eexists; (split; [reflexivity|]); auto 10.
Qed.

(** where the first three joints of a branch put the wrist and the point above it *)
Definition inner (t0 t1 t2 : R) : frame := fmul (asFrame x0 t0) (fmul (asFrame x1 t1) (fmul (asFrame x2 t2) fid)).
Lemma inner_app : forall t0 t1 t2 v, fapp (inner t0 t1 t2) v = move1 x0 t0 (move1 x1 t1 (move1 x2 t2 v)).
Proof. intros. unfold inner. rewrite !fapp_fmul, fapp_id. reflexivity. Qed.
Lemma x_rigid : forall e t, In e (exps xp) -> rigid (asFrame e t).
Proof. intros. apply asFrame_rigid. apply (wrist_axes x0 x1 x2 x3 x4 x5 xt xr xw xx xy x_ok x_arm). assumption. Qed.
Lemma inner_rigid : forall t0 t1 t2, rigid (inner t0 t1 t2).
Proof. intros. unfold inner. repeat apply rigid_mul; try apply rigid_id; apply x_rigid; cbn; auto. Qed.

Lemma x_wrist : forall t0 t1 t2 f l n loc,
  (t2 = 0 /\ t0 = 0 /\ t1 = 0) \/ (t2 = 0 /\ t0 = PI /\ t1 = - (PI / 2)) \/ (t2 = PI /\ t0 = 0 /\ t1 = PI / 2) \/ (t2 = PI /\ t0 = PI /\ t1 = 0) ->
  pk2_solve 3 4 x3 x4 xx xw (fmul (finv (inner t0 t1 t2)) fid) fid = Some (f, l) -> nth_error l n = Some loc ->
  f = true /\ fapp (inner t0 t1 t2) xw = xw /\ exists t3 t4, loc = [(3%nat, t3); (4%nat, t4)] /\ fapp (inner t0 t1 t2) (move1 x3 t3 (move1 x4 t4 xx)) = xx.
Proof.
  intros t0 t1 t2 f l n loc C SV NT. pose proof PI_RGT_0 as PP. rewrite fmul_id_r in SV.
  assert (I3 : In x3 (exps xp)) by (cbn; auto 10). assert (I4 : In x4 (exps xp)) by (cbn; auto 10).
  assert (O3 : on_axis x3 xw) by (on 0). assert (O4 : on_axis x4 xw) by (on 0).
  assert (CX : cross (e_axis x3) (e_axis x4) <> vzero) by (intro Q; apply (f_equal vz) in Q; cbn in Q; lra).
  assert (HX : move1 x4 0 xx = V 1 0 0) by (spin; apply vec_eq; cbn; ring).
  assert (HX' : move1 x4 PI xx = V 1 0 2) by (spin; apply vec_eq; cbn; ring).
  assert (GEN : forall a b v, fapp (inner t0 t1 t2) xw = xw -> fapp (inner t0 t1 t2) v = xx -> move1 x3 a (V 1 0 0) = v -> move1 x3 b (V 1 0 2) = v -> settled a -> settled b -> a <> b ->
    f = true /\ fapp (inner t0 t1 t2) xw = xw /\ exists t3 t4, loc = [(3%nat, t3); (4%nat, t4)] /\ fapp (inner t0 t1 t2) (move1 x3 t3 (move1 x4 t4 xx)) = xx).
  { intros a b v FW FV MA MB SA SB NE.
    assert (IV : fapp (finv (inner t0 t1 t2)) xx = v) by (rewrite <- FV; apply fapp_inv_l, inner_rigid).
    destruct (both2 3 4 x3 x4 a 0 b PI xx xw (finv (inner t0 t1 t2)) fid f l n loc) as [A B]; auto; rewrite ?fapp_id, ?IV.
    - rewrite HX. split; [exact MA|]. split; [apply sided; unfold dot, cross; cbn; [rewrite Rabs_pos_eq; lra|ring]|]. split; [off|]. split; [exact SA|apply set_0].
    - rewrite HX'. split; [exact MB|]. split; [apply sided; unfold dot, cross; cbn; [rewrite Rabs_left; lra|ring]|]. split; [off|]. split; [exact SB|apply set_pi].
    - off.
    - split; [exact A|]. split; [exact FW|]. destruct B as [-> | ->]; do 2 eexists; (split; [reflexivity|]).
      + now rewrite HX, MA.
      + now rewrite HX', MB. }
  destruct C as [(-> & -> & ->)|[(-> & -> & ->)|[(-> & -> & ->)|(-> & -> & ->)]]].
  - apply (GEN 0 PI (V 1 0 0)); rewrite ?inner_app; try (spin; apply vec_eq; cbn; ring); try apply set_0; try apply set_pi. lra.
  - apply (GEN (PI / 2) (- (PI / 2)) (V 0 0 1)); rewrite ?inner_app; try (spin; apply vec_eq; cbn; ring); try apply set_h; try apply set_mh. lra.
  - apply (GEN (PI / 2) (- (PI / 2)) (V 0 0 1)); rewrite ?inner_app; try (spin; apply vec_eq; cbn; ring); try apply set_h; try apply set_mh. lra.
  - apply (GEN PI 0 (V 1 0 2)); rewrite ?inner_app; try (spin; apply vec_eq; cbn; ring); try apply set_0; try apply set_pi. lra.
Qed.

Lemma x_roll : forall B f l, rigid B -> fapp B xw = xw -> fapp B xx = xx -> pk1_solve 5 x5 xy (fmul (finv B) fid) fid = Some (f, l) -> f = true.
Proof.
  intros B f l RB BW BX SV. rewrite fmul_id_r in SV. set (C := finv B) in *.
  assert (RC : rigid C) by (apply rigid_inv; exact RB).
  assert (CW : fapp C xw = xw) by (rewrite <- BW at 1; apply fapp_inv_l; exact RB).
  assert (CX : fapp C xx = xx) by (rewrite <- BX at 1; apply fapp_inv_l; exact RB).
  assert (U : unit (V 0 0 1)) by (unfold unit, dot; cbn; ring).
  set (u := vsub xy xw). set (v := vsub (fapp C xy) xw).
  assert (MV : v = mv (fM C) u) by (unfold v, u; rewrite <- CW at 1; apply fapp_sub).
  assert (MZ : mv (fM C) (V 0 0 1) = V 0 0 1).
  { replace (V 0 0 1) with (vsub xw xx) by (apply vec_eq; cbn; ring). rewrite <- fapp_sub, CX, CW. reflexivity. }
  assert (D1 : dot (V 0 0 1) u = dot (V 0 0 1) v).
  { rewrite MV. transitivity (dot (mv (fM C) (V 0 0 1)) (mv (fM C) u)); [symmetry; apply dot_rot; exact RC|now rewrite MZ]. }
  assert (D2 : dot u u = dot v v) by (rewrite MV, dot_rot; auto).
  pose proof (raw_angle_rot _ u v U D1 D2) as RA.
  destruct (pk1_complete 5 (V 0 0 1) xw xy C fid (raw_angle (V 0 0 1) u v) U) as (th & S & _).
  { rewrite fapp_id, move_rot by exact U. fold u. rewrite RA. unfold v. apply vec_eq; cbn; ring. }
  change (E ROTATION (V 0 0 1) xw) with x5 in S. rewrite S in SV. clear - SV. congruence.
Qed.

Lemma x_home_regular : regular (exps xp) xr xw xx (repeat 0 6).
Proof.
  cbn [regular exps xp repeat]. pose proof x_regular as RG. cbn [regular exps xp xq] in RG. cbv zeta in RG. destruct RG as [_ RG]. split; [|exact RG].
  intros t J. cbn in J. pose proof set_0. repeat destruct J as [<-|J]; auto. destruct J.
Qed.
Lemma x_reachable : exists cands, ik_solve xp (map sub_step W) false xt = Some (true, cands) /\ In (repeat 0 6) cands.
Proof.
  destruct (wrist_found x0 x1 x2 x3 x4 x5 xt xr xw xx xy false xt x_ok x_arm 0 0 0 0 0 0 (repeat 0 6)) as (flag & cands & SV & I); try reflexivity.
  { rewrite evaluate_some by reflexivity. f_equal. unfold eval_terms. cbn [exps tool combine fold_left fst snd]. rewrite !asFrame_0 by (unfold unit, dot; cbn; ring). rewrite !fmul_id_l. reflexivity. }
  { exact x_home_regular. }
  fold xp in SV. exists cands. replace true with flag; [auto|].
  assert (E : map sub_step W = map fst (problem_steps W)) by (unfold problem_steps; now rewrite map_map). rewrite E in SV.
  pose proof (wrist_steps_ok x0 x1 x2 x3 x4 x5 xt xr xw xx xy) as OK.
  pose proof (wrist_in_order x0 x1 x2 x3 x4 x5 xt xr xw xx xy) as IO.
  destruct (solve_own xp false xt x_ok _ _ _ OK ltac:(discriminate) IO SV) as (bs & FB & LB & DV). rewrite FB.
  apply forallb_forall. intros b J. apply In_nth with (d := true) in J. destruct J as (c & LC & NB). rewrite LB in LC.
  destruct (nth_error cands c) as [q|] eqn:N; [|apply nth_error_None in N; lia]. specialize (DV c q N). rewrite NB in DV. clear NB.
  match type of DV with derived _ _ _ _ _ ?ch _ _ => assert (LK : exists k0 k1 k2 k3, ch = [k0; k1; k2; k3]) by (do 4 eexists; reflexivity) end.
  destruct LK as (k0 & k1 & k2 & k3 & LK). rewrite LK in DV. clear LK.
  apply (wrist_path x0 x1 x2 x3 x4 x5 xt xr xw xx xy false xt) in DV. cbv zeta in DV.
  destruct DV as (g0 & m0 & loc0 & g1 & m1 & loc1 & g2 & m2 & loc2 & g3 & m3 & loc3 & V0 & M0 & V1 & M1 & V2 & M2 & V3 & M3 & _ & ->).
  fold xp in V0, V1, V2, V3. replace (goal xp false xt) with fid in V0, V1, V2, V3 by (unfold goal; cbn [tool xp]; now rewrite fmul_inv_r by apply rigid_trans).
  destruct (x_elbow _ _ _ _ V0 M0) as [-> C0].
  assert (exists t2, loc0 = [(2%nat, t2)] /\ (t2 = 0 \/ t2 = PI)) as (t2 & -> & C2) by (destruct C0 as [-> | ->]; eauto).
  change (displ xp false (assign xp false [(2%nat, t2)] (repeat 0 6)) 2) with (asFrame x2 t2) in V1.
  destruct (x_shoulder _ _ _ _ _ C2 V1 M1) as (-> & t0 & t1 & -> & C1).
  change (product xp false (assign xp false [(0%nat, t0); (1%nat, t1)] (assign xp false [(2%nat, t2)] (repeat 0 6))) 0 3) with (inner t0 t1 t2) in V2.
  destruct (x_wrist _ _ _ _ _ _ _ C1 V2 M2) as (-> & FW & t3 & t4 & -> & FX).
  match type of V3 with pk1_solve _ _ _ (fmul (finv ?b) _) _ = _ => set (B := b) in V3 end.
  assert (BB : forall v, fapp B v = fapp (inner t0 t1 t2) (move1 x3 t3 (move1 x4 t4 v))).
  { intro v. change B with (fmul (asFrame x0 t0) (fmul (asFrame x1 t1) (fmul (asFrame x2 t2) (fmul (asFrame x3 t3) (fmul (asFrame x4 t4) fid))))).
    rewrite inner_app, !fapp_fmul, fapp_id. reflexivity. }
  assert (g3 = true) as ->; [|reflexivity]. eapply (x_roll B); [| | |exact V3].
  - change B with (fmul (asFrame x0 t0) (fmul (asFrame x1 t1) (fmul (asFrame x2 t2) (fmul (asFrame x3 t3) (fmul (asFrame x4 t4) fid))))).
    repeat apply rigid_mul; try apply rigid_id; apply x_rigid; cbn; auto 10.
  - rewrite BB. replace (move1 x4 t4 xw) with xw by (spin; apply vec_eq; cbn; ring). replace (move1 x3 t3 xw) with xw by (spin; apply vec_eq; cbn; ring). exact FW.
  - rewrite BB. exact FX.
Qed.
Lemma x_apart : xw <> xx. Proof. intro Q. apply (f_equal vz) in Q. cbn in Q. lra. Qed.

(** the builder returns these steps *)
Definition x_arm_q : qpoe := QP
  [QE ROTATION (QV 0 0 1) qzero; QE ROTATION (QV 0 1 0) qzero; QE ROTATION (QV 0 1 0) (QV 0 0 1); QE ROTATION (QV 0 1 0) (QV 1 0 1); QE ROTATION (QV 1 0 0) (QV 1 0 1); QE ROTATION (QV 0 0 1) (QV 1 0 1)]%Q
  (qat (QV 1 0 0)%Q).
Definition x_draws : list Q := [1 # 2; 1 # 3; 1 # 4; 1 # 5; 1 # 6; 1 # 7].
Lemma x_arm_eq : rp x_arm_q = xp.
Proof.
  assert (Q1 : Q2R 1 = 1) by (unfold Q2R; cbn; lra).
  unfold rp, x_arm_q, xp, x0, x1, x2, x3, x4, x5, xt, re, rf, qat, rv, ftrans, mid. cbn [q_exps q_tool map q_motion q_axis q_origin q_r0 q_r1 q_r2 q_p qx qy qz qzero].
  rewrite Q1, r_0. reflexivity.
Qed.
Lemma x_built : build 1000 (map Q2R x_draws) xp = Returns (Some (xp, W, false)).
Proof.
  assert (Q1 : Q2R 1 = 1) by (unfold Q2R; cbn; lra).
  rewrite <- x_arm_eq at 1. rewrite run_build.
  match goal with |- context [qbuild ?a ?b ?c] => let v := eval vm_compute in (qbuild a b c) in replace (qbuild a b c) with v by (vm_compute; reflexivity) end.
  cbn [rout option_map]. unfold rbuilt. cbn [fst snd map rs].
  unfold wrist_steps, xp, x0, x1, x2, x3, x4, x5, xt, xr, xw, xx, xy, rp, re, rf, rv, ftrans, mid. cbn [exps q_exps q_tool map q_motion q_axis q_origin q_r0 q_r1 q_r2 q_p qx qy qz].
  rewrite ?Q1, ?r_0. reflexivity.
Qed.
