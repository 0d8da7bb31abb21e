(** Proofs about the solver of ASIBOT: tools, origins, differences of poses, and the places
    where the Jacobian with a tool is wrong. *)
From Coq Require Import Reals Lra Lia List Bool Arith.
From Verif Require Import Kdl KdlFacts KdlRot KdlRotFacts Trig TrigFacts KinRep KinRepSpec KinRepFacts Asibot AsibotSpec AsibotFacts AsibotFacts5 AsibotExamples.
Import ListNotations.
Open Scope R_scope.
Local Notation S := Datatypes.S.

(** ** Tools *)
Lemma appended : forall s x h, untooled s -> denotes x h -> exists s', appendLink s x = Some s' /\ untooled s' /\ same_arm s s' /\ tool s' = fmul (tool s) h.
Proof.
  intros s x h U D. unfold appendLink. rewrite (to_matrix _ _ D). eexists. split; [reflexivity|]. split; [discriminate|]. split; [repeat split|].
  unfold tool. cbn [hasFrame frameTcp]. destruct (hasFrame s) eqn:E; [reflexivity|]. rewrite (U E). reflexivity.
Qed.
Lemma same_arm_trans : forall a b c, same_arm a b -> same_arm b c -> same_arm a c.
Proof. unfold same_arm. intros a b c (? & ? & ? & ? & ? & ?) (? & ? & ? & ? & ? & ?). repeat split; congruence. Qed.
Theorem tools : forall xs hs s, untooled s -> Forall2 denotes xs hs ->
  exists s', append_all s xs = Some s' /\ untooled s' /\ same_arm s s' /\ tool s' = fold_left fmul hs (tool s).
Proof.
  intros xs hs s U F. revert s U. induction F as [|x h xs hs D F IH]; intros s U; cbn [append_all fold_left].
  - exists s. split; [reflexivity|]. split; [exact U|]. split; [repeat split|reflexivity].
  - destruct (appended s x h U D) as (s1 & -> & U1 & A1 & T1). destruct (IH s1 U1) as (s2 & E & U2 & A2 & T2). exists s2.
    split; [exact E|]. split; [exact U2|]. split; [eapply same_arm_trans; eauto|]. rewrite T2, T1. reflexivity.
Qed.
Theorem restored : forall s, untooled (restoreOriginalChain s) /\ same_arm s (restoreOriginalChain s) /\ tool (restoreOriginalChain s) = fid.
Proof. intros s. split; [intros _; reflexivity|]. split; [repeat split|reflexivity]. Qed.
Theorem opened : forall a0 a1 a2 a3 lo hi s, as_open a0 a1 a2 a3 lo hi = Some s ->
  well_made s /\ untooled s /\ tool s = fid /\ (forall i l h, nth_error (qMin s) i = Some l -> nth_error (qMax s) i = Some h -> l <= h) /\
  A0 s = a0 /\ A1 s = a1 /\ A2 s = a2 /\ A3 s = a3 /\ qMin s = lo /\ qMax s = hi.
Proof.
  intros a0 a1 a2 a3 lo hi s H. unfold as_open in H. destruct (Nat.eqb (length lo) 5) eqn:E1; [|discriminate]. destruct (Nat.eqb (length hi) 5) eqn:E2; [|discriminate].
  cbn [negb orb] in H. destruct (existsb _ _) eqn:E3; [discriminate|]. injection H as <-. apply Nat.eqb_eq in E1, E2.
  split; [split; assumption|]. split; [intros _; reflexivity|]. split; [reflexivity|]. split; [|repeat split]. cbn [qMin qMax].
  intros i l h L H. destruct (Rle_or_lt l h) as [|N]; [assumption|exfalso]. apply Rltb_true in N.
  assert (I0 : In (l, h) (combine lo hi)).
  { clear - L H. revert hi i L H. induction lo as [|a lo IH]; intros [|b hi] [|i] L H; try discriminate; cbn in *; [left; congruence|right; eauto]. }
  assert (existsb (fun '(lo0, hi0) => Rltb hi0 lo0) (combine lo hi) = true) by (apply existsb_exists; exists (l, h); auto). congruence.
Qed.

(** ** Origins and differences *)
Theorem origin : forall svd x y a b, svd_ok svd -> denotes x a -> denotes y b -> regular_log (fM (fmul b a)) ->
  exists z, changeOrigin svd x y = Some z /\ denotes z (fmul b a).
Proof.
  intros svd x y a b SV DX DY RG. unfold changeOrigin. rewrite (to_matrix _ _ DX), (to_matrix _ _ DY). eexists. split; [reflexivity|].
  apply matrix_denotes; auto. apply rot_mm; [apply (denotes_rigid _ _ DY)|apply (denotes_rigid _ _ DX)].
Qed.
Theorem difference : forall svd x y l r, svd_ok svd -> denotes x l -> denotes y r -> regular_log (mm (mT (fM r)) (fM l)) ->
  exists a t, poseDiff svd x y = Some (three (vsub (fp l) (fp r)) ++ three (vscale t a)) /\ unit a /\ 0 <= t /\ mm (Rot2 a t) (fM r) = fM l.
Proof.
  intros svd x y l r SV DX DY RG. unfold poseDiff. rewrite (to_matrix _ _ DX), (to_matrix _ _ DY).
  pose proof (denotes_rigid _ _ DX) as RL. pose proof (denotes_rigid _ _ DY) as RR. unfold rigid in *.
  assert (RM : rotation_matrix (mm (mT (fM r)) (fM l))) by (apply rot_mm; [apply rot_mT; exact RR|exact RL]).
  pose proof (matrix_denotes svd (F (mm (mT (fM r)) (fM l)) vzero) SV RM RG) as (a & t & U & T & E & M). cbn [fM fp] in M.
  unfold matrixToVector in E. cbn [fM fp] in E. destruct (dcm2axis svd (mm (mT (fM r)) (fM l))) as [a' t'].
  assert (V : vscale t' a' = vscale t a).
  { unfold three, vzero in E. cbn [app vx vy vz] in E. apply vec_eq; [apply (f_equal (fun k => nth 3 k 0)) in E|apply (f_equal (fun k => nth 4 k 0)) in E|apply (f_equal (fun k => nth 5 k 0)) in E]; exact E. }
  exists (mv (fM r) a), t. rewrite V. split; [|split; [apply unit_rot; assumption|split; [pose proof kdl_eps_pos; destruct T; lra|]]].
  - do 2 f_equal. destruct (fM r), a; unfold three; cbn. f_equal; [ring|]. f_equal; [ring|]. f_equal; ring.
  - rewrite Rot2_conj by exact RR. rewrite !mm_assoc, rot_TM, mm_id_r by exact RR. rewrite <- M, <- mm_assoc, rot_MT, mm_id_l by exact RR. reflexivity.
Qed.

(** ** The Jacobian with a tool *)
Definition sR : asibot := As 1 1 1 (/ 2) (map Ropp lim) lim true (F (RotZ (PI / 2)) (V 1 0 0)).
Lemma first_col : forall s, A1 s = 1 -> A2 s = 1 -> A3 s = / 2 ->
  nth_error (base_jacobian (A1 s) (A2 s) (A3 s) (rad 0) (rad 30) (rad 120) (rad (-60))) 0 = Some (Tw (V 0 (3 / 2) 0) (V 0 0 1)).
Proof.
  intros s H1 H2 H3. rewrite H1, H2, H3. unfold base_jacobian. cbv zeta. cbn [nth_error]. f_equal. f_equal.
  rewrite sum90, sum150, r0, sin_PI_x, r30, sin_PI6, sin_PI2, sin_0, cos_0. apply vec_eq; cbn; field.
Qed.
(** a rotated tool *)
Theorem rotated_tool : exists s q cols c, length q = 5%nat /\ rigid (tool s) /\ 0 < ahead s q /\ regular_log (fM (flange s q)) /\ regular_log (fM (fmul (flange s q) (tool s))) /\
  jacobian svd0 s q BASE_FRAME = Some (Some cols) /\ nth_error cols 0 = Some c /\ ~ velocity_of (fun u => fmul (moved s q 0 u) (tool s)) (rad (nth 0 q 0)) c.
Proof.
  exists sR, qa. assert (FL : flange sR qa = F (RotY (PI / 2)) (V (3 / 2) 0 1)) by (apply flange_a; reflexivity).
  assert (RT : rigid (tool sR)) by (unfold rigid; cbn [tool sR hasFrame frameTcp fM]; rewrite RotZ_Rot2; apply Rot2_rot, unit_ez).
  assert (FM : fM (fmul (flange sR qa) (tool sR)) = M 0 0 1 1 0 0 0 1 0).
  { rewrite FL. cbn [tool sR hasFrame frameTcp fmul fM]. apply mat_eq; cbn; rewrite ?sin_PI2, ?cos_PI2; ring. }
  assert (R2 : regular_log (fM (fmul (flange sR qa) (tool sR)))) by (rewrite FM; left; left; cbn; unfold kdl_eps; rewrite Rabs_left; lra).
  assert (R1 : regular_log (fM (flange sR qa))) by (rewrite FL; apply off_Y).
  assert (AH : 0 < ahead sR qa) by (rewrite ahead_a by reflexivity; lra).
  destruct (forward_pose svd0 sR qa eq_refl svd0_ok AH RT R1 R2) as (x & FK & DX).
  set (b := base_jacobian (A1 sR) (A2 sR) (A3 sR) (rad 0) (rad 30) (rad 120) (rad (-60))) in *.
  pose proof (first_col sR eq_refl eq_refl eq_refl) as FC. fold b in FC.
  set (fix_ := fun c : twist => Tw (vadd (t_vel c) (vneg (mv (mm (M 0 0 1 1 0 0 0 1 0) (mm (skew (V 1 0 0)) (mT (M 0 0 1 1 0 0 0 1 0)))) (t_rot c)))) (t_rot c)).
  exists (map fix_ b), (fix_ (Tw (V 0 (3 / 2) 0) (V 0 0 1))).
  split; [reflexivity|]. split; [exact RT|]. split; [exact AH|]. split; [exact R1|]. split; [exact R2|]. split; [|split].
  - unfold jacobian. change (hasFrame sR) with true. cbv iota. rewrite FK, (to_matrix _ _ DX), FM. unfold qa. rewrite !rad_deg. reflexivity.
  - rewrite nth_error_map, FC. reflexivity.
  - intros (D & _). change (nth 0 qa 0) with 0 in D.
    pose proof (base_columns sR 0 30 120 (-60) 0 0 _ FC) as V. cbn [nth] in V. pose proof (with_tool _ _ _ (tool sR) V) as (W & _).
    pose proof (moved_here sR qa 0) as MH. cbn [nth qa] in MH. fold qa in W, MH. rewrite MH, FL in W.
    pose proof (uniqueness_limite _ _ _ _ D W) as K. revert K. unfold fix_. cbn [tool sR hasFrame frameTcp]. cbn. rewrite ?sin_PI2, ?cos_PI2. lra.
Qed.
(** the TCP frame *)
Theorem tcp_tool : exists s q cols c v, length q = 5%nat /\ fM (tool s) = mid /\ 0 < ahead s q /\ regular_log (fM (flange s q)) /\
  jacobian svd0 s q TCP_FRAME = Some (Some cols) /\ nth_error cols 0 = Some c /\
  velocity_of (fun u => fmul (moved s q 0 u) (tool s)) (rad (nth 0 q 0)) v /\ t_vel c <> mv (mT (fM (fmul (flange s q) (tool s)))) (t_vel v).
Proof.
  exists sT, qa. assert (FL : flange sT qa = F (RotY (PI / 2)) (V (3 / 2) 0 1)) by (apply flange_a; reflexivity).
  assert (TL : fmul (flange sT qa) (tool sT) = F (RotY (PI / 2)) (V (5 / 2) 0 1)) by (rewrite FL; apply tooled).
  assert (R1 : regular_log (fM (flange sT qa))) by (rewrite FL; apply off_Y).
  assert (AH : 0 < ahead sT qa) by (rewrite ahead_a by reflexivity; lra).
  destruct (forward_pose svd0 sT qa eq_refl svd0_ok AH (rigid_up 1) R1) as (x & FK & DX); [rewrite TL; apply off_Y|]. rewrite TL in *.
  set (b := tcp_jacobian (A1 sT) (A2 sT) (A3 sT) (rad 30) (rad 120) (rad (-60)) (rad 0)) in *.
  set (fix_ := fun c : twist => Tw (vadd (t_vel c) (vneg (mv (mm (RotY (PI / 2)) (mm (skew (V 0 0 1)) (mT (RotY (PI / 2))))) (t_rot c)))) (t_rot c)).
  set (c0 := Tw (V 0 (3 / 2) 0) (V (-1) 0 0)).
  assert (FC : nth_error b 0 = Some c0).
  { unfold b, tcp_jacobian, c0. cbv zeta. cbn [nth_error A1 A2 A3 sT]. f_equal. f_equal;
    rewrite sum90, ?sum150, r0, ?sin_PI_x, ?r30, ?sin_PI6, ?sin_PI2, ?cos_PI2, ?sin_0, ?cos_0; apply vec_eq; cbn; field. }
  exists (map fix_ b), (fix_ c0). eexists.
  split; [reflexivity|]. split; [reflexivity|]. split; [exact AH|]. split; [exact R1|]. split; [|split; [|split]].
  - unfold jacobian. change (hasFrame sT) with true. cbv iota. rewrite FK, (to_matrix _ _ DX). unfold qa. rewrite !rad_deg. reflexivity.
  - rewrite nth_error_map, FC. reflexivity.
  - apply with_tool. apply (base_columns sT 0 30 120 (-60) 0 0). apply first_col; reflexivity.
  - pose proof (moved_here sT qa 0) as MH. rewrite MH, FL. intros E. apply (f_equal vy) in E. revert E. unfold fix_, c0. cbn. rewrite ?sin_PI2, ?cos_PI2. lra.
Qed.
Lemma same_flange : forall s s' q, same_arm s s' -> flange s' q = flange s q /\ ahead s' q = ahead s q.
Proof. intros s s' q (E0 & E1 & E2 & E3 & _). unfold flange, ahead. rewrite E0, E1, E2, E3. auto. Qed.
Theorem appended_forward : forall svd s xs hs q, svd_ok svd -> untooled s -> Forall2 denotes xs hs -> length q = 5%nat -> 0 < ahead s q ->
  let h := fold_left fmul hs (tool s) in rigid h -> regular_log (fM (flange s q)) -> regular_log (fM (fmul (flange s q) h)) ->
  exists s' x, append_all s xs = Some s' /\ fwdKin svd s' q = Some x /\ denotes x (fmul (flange s q) h).
Proof.
  intros svd s xs hs q SV U F L AH h RT R1 R2. destruct (tools xs hs s U F) as (s' & E & _ & SA & T). destruct (same_flange s s' q SA) as [EF EA]. fold h in T.
  exists s'. destruct (forward_pose svd s' q L SV) as (x & FK & DX); [rewrite EA; exact AH|rewrite T; exact RT|rewrite EF; exact R1|rewrite EF, T; exact R2|].
  exists x. rewrite EF, T in DX. auto.
Qed.
Theorem restored_forward : forall svd s xs s' q, untooled s -> hasFrame s = false -> append_all s xs = Some s' ->
  fwdKin svd (restoreOriginalChain s') q = fwdKin svd s q.
Proof.
  intros svd s xs s' q U HF E. assert (SA : same_arm s s').
  { clear U HF. revert s E. induction xs as [|x xs IH]; intros s E; cbn in E; [injection E as <-; repeat split|].
    destruct (appendLink s x) as [s1|] eqn:A; [|discriminate]. eapply same_arm_trans; [|apply IH; exact E]. unfold appendLink in A. destruct (vectorToMatrix x); [|discriminate]. injection A as <-. repeat split. }
  replace (restoreOriginalChain s') with s; [reflexivity|]. destruct SA as (E0 & E1 & E2 & E3 & E4 & E5). unfold restoreOriginalChain. rewrite E0, E1, E2, E3, E4, E5.
  specialize (U HF). destruct s. cbn in *. subst. reflexivity.
Qed.
Theorem equal_poses : forall svd x h, svd_ok svd -> denotes x h -> poseDiff svd x x = Some [0; 0; 0; 0; 0; 0].
Proof.
  intros svd x h SV D. unfold poseDiff. rewrite (to_matrix _ _ D). pose proof (denotes_rigid _ _ D) as RH. unfold rigid in RH. rewrite rot_TM by exact RH.
  unfold dcm2axis. cbn [mid m00 m01 m02 m10 m11 m12 m20 m21 m22].
  replace (V (0 - 0) (0 - 0) (0 - 0)) with vzero by (unfold vzero; apply vec_eq; cbn; ring).
  assert (N0 : norm vzero = 0) by (unfold norm; replace (dot vzero vzero) with 0 by (unfold dot; cbn; ring); apply sqrt_0).
  rewrite N0. replace (Rltb 0 (/ 1000000000)) with true by (symmetry; apply Rltb_true; lra).
  match goal with |- context [atan2 ?a ?b] => replace (atan2 a b) with 0 end.
  - f_equal. unfold three. destruct (fM h), (fp h), (vscale (/ norm (svd mid)) (svd mid)); cbn. do 5 (f_equal; [ring|]). f_equal. ring.
  - symmetry. match goal with |- atan2 ?a ?b = 0 => replace a with 0 by lra; apply atan2_0; lra end.
Qed.

(** ** Examples *)
Lemma opened_s1 : as_open 1 1 1 (/ 2) (map Ropp lim) lim = Some s1.
Proof.
  unfold as_open, lim. cbn [length Nat.eqb negb orb map combine existsb].
  replace (Rltb 180 (-(180))) with false by (symmetry; apply Rltb_false; lra). reflexivity.
Qed.
Lemma denotes_up : forall h, denotes [0; 0; h; 0; 0; 0] (up h).
Proof.
  intros h. exists (V 0 0 1), 0. split; [unfold unit, dot; cbn; ring|]. split; [left; reflexivity|]. split; [|symmetry; apply Rot2_0].
  unfold up. cbn [fp vx vy vz]. rewrite !Rmult_0_l. reflexivity.
Qed.
Lemma appended_sT : append_all s1 [[0; 0; 1; 0; 0; 0]] = Some sT.
Proof. cbn [append_all]. unfold appendLink. rewrite (to_matrix _ _ (denotes_up 1)). unfold s1 at 1. cbn [frameTcp]. rewrite fmul_id_l. reflexivity. Qed.
