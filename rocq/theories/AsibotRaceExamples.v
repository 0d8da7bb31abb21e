(** The solver of ASIBOT used by several threads: answers that one thread never gets, and a tool that is lost. *)
From Coq Require Import Reals Lra Lia List Bool Arith.
From Verif Require Import Kdl KdlFacts KdlRot KdlRotFacts Trig TrigFacts KinRep KinRepSpec KinRepFacts KinRepFacts2 KinRepFacts3 Asibot AsibotSpec AsibotFacts AsibotFacts2 AsibotFacts3 AsibotFacts4 AsibotExamples AsibotFacts6 AsibotRace AsibotRaceSpec AsibotRaceFacts.
Import ListNotations.
Open Scope R_scope.

(** the arm with a tool of length [h] *)
Definition sU (h : R) : asibot := As 1 1 1 (/ 2) (map Ropp lim) lim true (up h).
Definition pose_at (x : R) : frame := F (RotY (PI / 2)) (V x 0 1).
Lemma lengthened x h : fmul (pose_at x) (up h) = pose_at (x + h).
Proof. unfold pose_at, fmul, up. cbn [fM fp]. f_equal; [apply mat_eq; cbn; ring|]. apply vec_eq; cbn; rewrite ?sin_PI2, ?cos_PI2; field. Qed.
Lemma up_0 : up 0 = fid.
Proof. reflexivity. Qed.
Definition plainly (s : asibot) (h : R) : Prop := A0 s = 1 /\ A1 s = 1 /\ A2 s = 1 /\ A3 s = / 2 /\ qMin s = map Ropp lim /\ qMax s = lim /\ tool s = up h.
Lemma plainly_U h : plainly (sU h) h.
Proof. repeat split; reflexivity. Qed.
Lemma plainly_1 : plainly s1 0.
Proof. repeat split; reflexivity. Qed.
Lemma made_of s h : plainly s h -> well_made s.
Proof. intros (_ & _ & _ & _ & H1 & H2 & _). unfold well_made. rewrite H1, H2. split; reflexivity. Qed.
Lemma flange_of s h : plainly s h -> flange s qa = pose_at (3 / 2).
Proof. intros (H0 & H1 & H2 & H3 & _). apply flange_a; assumption. Qed.
Lemma forward_of s h : plainly s h -> exists x, fwdKin svd0 s qa = Some x /\ denotes x (pose_at (3 / 2 + h)).
Proof.
  intros P. pose proof (flange_of s h P) as FL. destruct P as (H0 & H1 & H2 & H3 & _ & _ & T).
  rewrite <- lengthened, <- FL, <- T. apply forward_pose; [reflexivity|apply svd0_ok| | | |]; rewrite ?FL.
  - rewrite ahead_a by assumption. lra.
  - rewrite T. apply rigid_up.
  - apply off_Y.
  - rewrite T, lengthened. apply off_Y.
Qed.
Definition stay : list R := [0; 0; 0; 0; 0; 0].
Lemma denotes_stay : denotes stay fid.
Proof. exact (denotes_up 0). Qed.
Lemma same_place x s h : plainly s h -> fwdKin svd0 s qa = Some x -> exists xb, changeOrigin svd0 stay x = Some xb /\ denotes xb (pose_at (3 / 2 + h)).
Proof.
  intros P E. destruct (forward_of s h P) as (x' & E' & D). assert (x' = x) as -> by congruence.
  destruct (origin svd0 stay x fid (pose_at (3 / 2 + h)) svd0_ok denotes_stay D) as (z & Z1 & Z2).
  - rewrite fmul_id_r. apply off_Y.
  - exists z. split; [exact Z1|]. rewrite fmul_id_r in Z2. exact Z2.
Qed.
(** to stay where the tool is can always be done *)
Lemma stay_found s h : plainly s h -> exists q, invKin svd0 s stay qa TCP_FRAME = Some (Some q).
Proof.
  intros P. destruct (forward_of s h P) as (x & E & D). destruct (same_place x s h P E) as (xb & C & Db).
  assert (exists q, invKin svd0 s xb qa BASE_FRAME = Some (Some q)) as (q & Q).
  { pose proof (flange_of s h P) as FL. pose proof (made_of s h P) as W. destruct P as (H0 & H1 & H2 & H3 & H4 & H5 & T).
    apply (found svd0 s xb qa qa); rewrite ?H1, ?H2, ?H3, ?FL, ?T; try lra; try assumption.
    - apply svd0_ok.
    - cbn; lia.
    - apply rigid_up.
    - rewrite lengthened. exact Db.
    - intros _. apply off_Y.
    - rewrite H4, H5. apply within_a; [reflexivity|apply turn_a].
    - apply turn_a.
    - apply not_shoulder_a; assumption.
    - apply yz_a. }
  exists q. rewrite <- Q. unfold invKin. rewrite E, C. reflexivity.
Qed.
(** the arm does not reach farther than its length *)
Lemma reach q : vx (fp (flange s1 q)) <= 5 / 2.
Proof.
  assert (B : forall a b, -1 <= a <= 1 -> -1 <= b <= 1 -> a * b <= 1) by (intros; nra).
  unfold flange. destruct q as [|q1 [|q2 [|q3 [|q4 [|q5 [|]]]]]]; try (cbn; lra).
  set (r1 := rad q1). set (r2 := rad q2). set (r3 := rad q3). set (r4 := rad q4). set (r5 := rad q5).
  assert (vx (fp (arm (A0 s1) (A1 s1) (A2 s1) (A3 s1) r1 r2 r3 r4 r5)) = cos r1 * sin r2 + cos r1 * sin (r2 + r3) + / 2 * (cos r1 * sin (r2 + r3 + r4))) as ->.
  { rewrite arm_form. cbn [A0 A1 A2 A3 s1 vx fp]. ring. }
  pose proof (COS_bound r1). pose proof (SIN_bound r2). pose proof (SIN_bound (r2 + r3)). pose proof (SIN_bound (r2 + r3 + r4)).
  pose proof (B (cos r1) (sin r2)). pose proof (B (cos r1) (sin (r2 + r3))). pose proof (B (cos r1) (sin (r2 + r3 + r4))). lra.
Qed.
Lemma far_refused xb : denotes xb (pose_at (7 / 2)) -> invKin svd0 s1 xb qa BASE_FRAME = Some None.
Proof.
  intros D. assert (denotes xb (fmul (pose_at (7 / 2)) (tool s1))) as D' by (change (tool s1) with fid; rewrite fmul_id_r; exact D).
  assert (rigid (pose_at (7 / 2))) as Rg by (unfold rigid, pose_at; cbn [fM]; rewrite <- ZYZ_Y; apply ZYZ_rot). assert (rigid (tool s1)) as Rt by apply (rigid_up 0).
  destruct (answers svd0 s1 xb qa (pose_at (7 / 2)) made_1 svd0_ok Rt Rg D') as (o & E); [discriminate|cbn; lia|].
  destruct o as [q|]; [|exact E]. exfalso.
  destruct (inverse svd0 s1 xb qa (pose_at (7 / 2)) q made_1 svd0_ok Rt Rg D' ltac:(discriminate) E) as (_ & _ & q' & _ & F1 & _).
  pose proof (reach q') as H. rewrite F1 in H. cbn in H. lra.
Qed.

(** the tool is taken off between the two times that the query looks at it *)
Definition between_reads : list a_turn := [AAsker; AChanger 0; AChanger 0; AAsker].
Theorem tcp_refuted : exists svd s os xd guess ts w r, svd_ok svd /\ well_made s /\
  a_play ts (a_begin s [os] (a_invKin svd s xd guess TCP_FRAME)) = Some w /\ a_query w = Answer r /\
  forall n s', a_after s (firstn n os) = Some s' -> r <> invKin svd s' xd guess TCP_FRAME.
Proof.
  destruct (forward_of (sU 2) 2 (plainly_U 2)) as (x & E & _). destruct (same_place x (sU 2) 2 (plainly_U 2) E) as (xb & C & D).
  exists svd0, (sU 2), [ARestore], stay, qa, between_reads. eexists. exists (Some None).
  split; [exact svd0_ok|]. split; [apply (made_of _ 2); apply plainly_U|]. split; [|split].
  - unfold between_reads, a_begin, a_invKin. cbn [a_play a_step a_query a_tcp a_threads map]. change (with_tcp (sU 2) (tcp_of (sU 2))) with (sU 2). rewrite E, C. reflexivity.
  - cbn [a_query]. change (with_tcp (sU 2) (false, fid)) with s1. rewrite far_refused; [reflexivity|]. replace (7 / 2) with (3 / 2 + 2) by lra. exact D.
  - intros n s' A EQ. assert (s' = sU 2 \/ s' = s1) as [-> | ->].
    { destruct n as [|n]; cbn in A; [left; congruence|]. rewrite firstn_nil in A. right. cbn in A. injection A as <-. reflexivity. }
    + destruct (stay_found (sU 2) 2 (plainly_U 2)) as (q & Q). rewrite Q in EQ. discriminate.
    + destruct (stay_found s1 0 plainly_1) as (q & Q). rewrite Q in EQ. discriminate.
Qed.

(** two threads add a tool each; one of them is lost *)
Definition one_up : list R := [0; 0; 1; 0; 0; 0].
Lemma one_up_is : vectorToMatrix one_up = Some (up 1).
Proof. exact (to_matrix _ _ (denotes_up 1)). Qed.
Theorem lost_refuted : exists svd s os1 os2 q ts w s' x y, svd_ok svd /\ well_made s /\
  a_play ts (a_begin s [os1; os2] (Answer None)) = Some w /\ a_all_made w /\
  a_after s (os1 ++ os2) = Some s' /\ a_after s (os2 ++ os1) = Some s' /\ fwdKin svd s' q = Some x /\ fwdKin svd (with_tcp s (a_tcp w)) q = Some y /\ x <> y.
Proof.
  destruct (forward_of (sU 2) 2 (plainly_U 2)) as (x & E & D). destruct (forward_of (sU 1) 1 (plainly_U 1)) as (y & Ey & Dy).
  assert (forall s, a_changed s (AAppend one_up) = Some (As (A0 s) (A1 s) (A2 s) (A3 s) (qMin s) (qMax s) true (fmul (frameTcp s) (up 1)))) as Ch.
  { intros s. cbn [a_changed]. unfold appendLink. rewrite one_up_is. reflexivity. }
  exists svd0, s1, [AAppend one_up], [AAppend one_up], qa, [AChanger 0; AChanger 1; AChanger 0; AChanger 1], (AW (true, fmul fid (up 1)) [(None, []); (None, [])] (Answer None)), (sU 2), x, y.
  assert (a_after s1 ([AAppend one_up] ++ [AAppend one_up]) = Some (sU 2)) as AA.
  { cbn [app a_after]. rewrite Ch, Ch. unfold sU, s1. cbn [A0 A1 A2 A3 qMin qMax frameTcp]. do 2 f_equal. rewrite fmul_id_l. unfold fmul, up, fapp. cbn [fM fp]. f_equal; [apply mm_id_l|]. apply vec_eq; cbn; ring. }
  split; [exact svd0_ok|]. split; [exact made_1|]. split; [|split; [|split; [exact AA|split; [exact AA|split; [exact E|split]]]]].
  - unfold a_begin. cbn [a_play a_step a_query a_tcp a_threads map nth a_set]. unfold a_new at 1. rewrite one_up_is. cbn [option_map a_play a_step a_threads a_query nth a_set]. unfold a_new at 1. rewrite one_up_is. reflexivity.
  - repeat constructor.
  - cbn [a_tcp]. rewrite <- Ey. f_equal. unfold with_tcp, tcp_of, s1, sU. cbn [fst snd A0 A1 A2 A3 qMin qMax hasFrame frameTcp]. rewrite fmul_id_l. reflexivity.
  - intros ->. destruct D as (a & t & _ & _ & X1 & _), Dy as (a' & t' & _ & _ & X2 & _). rewrite X1 in X2. injection X2 as X2. cbn in X2. lra.
Qed.
Lemma pose_while_changed : exists w r, a_play [AChanger 0; AAsker; AChanger 0] (a_begin s1 [[AAppend one_up]] (a_fwdKin svd0 s1 qa)) = Some w /\ a_query w = Answer r.
Proof.
  unfold a_begin. cbn [a_play a_step a_query a_tcp a_threads map nth a_set a_new a_fwdKin]. rewrite one_up_is. cbn [option_map snd a_threads a_query nth a_set]. eexists. eexists. split; reflexivity.
Qed.
