(** A device with a six-axis arm for the theorems about inverse and forward kinematics. *)
From Coq Require Import ZArith QArith Reals Qreals Lra List Bool Lia Arith.
From Verif Require Import Kdl KdlFacts KdlRot Screw ScrewFacts Subproblems IkProblem Selector Builder BuilderRun KinRep KinRepSpec KinRepFacts3 KdlSolver IkPoseSpec IkPoseFacts2 IkPoseFacts3 IkPoseArms IkPoseExamples SolverLoopSpec SolverLoopFacts.
Import ListNotations.
Open Scope R_scope.
Local Notation S := Datatypes.S.

(** the arm of IkPoseExamples as a KDL chain *)
Definition link (t : jtype) (v : vec) : segment := mk_segment (J t 1 0 vzero vzero) (ftrans v).
Definition xc : chain := [link JRotZ (V 0 0 0); link JRotY (V 0 0 1); link JRotY (V 1 0 0); link JRotY (V 0 0 0); link JRotX (V 0 0 0); link JRotZ (V 0 0 (-1))].
Lemma axis_rigid : forall t, In t [JRotX; JRotY; JRotZ] -> joint_pose (J t 1 0 vzero vzero) 0 = fid.
Proof.
  intros t [<-|[<-|[<-|[]]]]; unfold joint_pose, RotX, RotY, RotZ, fid, mid; cbn [j_type j_scale j_offset];
    replace (1 * 0 + 0) with 0 by ring; rewrite sin_0, cos_0, Ropp_0; reflexivity.
Qed.
Lemma link_ok : forall t v, In t [JRotX; JRotY; JRotZ] -> segment_ok (link t v).
Proof.
  intros t v I. unfold segment_ok, link, mk_segment. cbn [s_joint s_tip j_type j_axis j_origin j_scale j_offset].
  split; [rewrite axis_rigid by exact I; apply rigid_mul; [apply rigid_inv, rigid_id|apply rigid_trans]|].
  split; [intros [-> | ->]; cbn in I; intuition discriminate|auto].
Qed.
Lemma xc_ok : chain_ok xc.
Proof. unfold xc. repeat apply Forall_cons; try apply Forall_nil; apply link_ok; cbn; auto. Qed.
Lemma link_step : forall t es T u v, In t [JRotX; JRotY; JRotZ] -> fromChain_step (P es T, ftrans u) (link t v) =
  (P (es ++ [E ROTATION (joint_axis (J t 1 0 vzero vzero)) u]) T, ftrans (vadd u v)).
Proof.
  intros t es T u v I. unfold fromChain_step, link. f_equal.
  - cbn [s_joint mk_segment j_type j_origin]. assert (jointTypeToMotionId t = Some ROTATION) as -> by (destruct I as [<-|[<-|[<-|[]]]]; reflexivity).
    unfold append_exp. cbn [exps tool]. f_equal. f_equal. f_equal.
    assert (A : mv (fM (ftrans u)) (joint_axis (J t 1 0 vzero vzero)) = joint_axis (J t 1 0 vzero vzero)) by (apply vec_eq; cbn; ring). rewrite A.
    unfold mk_exp. rewrite normalize_of_unit by (destruct I as [<-|[<-|[<-|[]]]]; unfold unit, dot; cbn; ring).
    unfold cloneWithBase, changeBase. cbn [e_motion e_axis e_origin]. f_equal; apply vec_eq; cbn; ring.
  - unfold segment_pose, mk_segment. cbn [s_joint s_tip]. rewrite axis_rigid by exact I.
    apply frame_eq; [apply mat_eq; cbn; ring|apply vec_eq; cbn; ring].
Qed.
Lemma xc_poe : fromChain xc = xp.
Proof.
  unfold fromChain, xc. cbn [fold_left]. change fid with (ftrans vzero). unfold mk_poe.
  do 6 (rewrite link_step by (cbn; auto)). cbn [app exps joint_axis j_type].
  unfold xp, x0, x1, x2, x3, x4, x5, xt, ftrans. unfold vadd, vzero. cbn [vx vy vz]. rewrite !Rplus_0_l, !Rplus_0_r. replace (1 + -1) with 0 by ring. reflexivity.
Qed.
Definition xlimits := repeat PI 6.
Definition xs : solver := Sv xc xc (StIk xp (wrist_steps (exps xp) xr xw xx xy) false E_NOERROR (new_selector (map Ropp xlimits) xlimits)).
Lemma xs_open : sv_open 1000 (map Q2R x_draws) xc (new_selector (map Ropp xlimits) xlimits) = Returns (Some xs).
Proof. unfold sv_open, st_create. rewrite xc_poe, x_built. reflexivity. Qed.
Lemma xs_wrist : wrist_problem xs xr xw xx xy.
Proof. exact (conj x_arm eq_refl). Qed.
(** quarter turns of three joints *)
Definition xd6 : list R := [90; 0; 0; 90; 0; 90].
Lemma xd_rad : map degToRad xd6 = xq.
Proof. unfold xd6, xq, degToRad. cbn [map]. replace (90 * (PI / 180)) with (PI / 2) by field. replace (0 * (PI / 180)) with 0 by ring. reflexivity. Qed.
Lemma xd_within : within (map Ropp xlimits) xlimits (map degToRad xd6).
Proof.
  rewrite xd_rad. split; [reflexivity|]. split; [reflexivity|]. pose proof PI_RGT_0. pose proof kdl_eps_pos.
  intros i x lo hi A B C. do 6 (destruct i as [|i]; [cbn in A, B, C; injection A as <-; injection B as <-; injection C as <-; lra|]). destruct i; discriminate.
Qed.
Lemma xd_pose : exists f, chain_fwd_kin xc (map degToRad xd6) = Some f /\ regular_log (fM f).
Proof.
  rewrite xd_rad. destruct (fk_fromChain xc xq xc_ok eq_refl) as (_ & f & F1 & F2). exists f. split; [exact F1|].
  rewrite xc_poe in F2. rewrite evaluate_some in F2 by reflexivity. apply (f_equal (fun o => match o with Some h => h | None => fid end)) in F2. rewrite <- F2. clear F1 F2.
  right. cbn [exps xp tool xq]. unfold eval_terms, xq. cbn [combine fold_left fst snd].
  assert (Z0 : forall e, In e (exps xp) -> asFrame e 0 = fid) by (intros e I; apply asFrame_0; apply (wrist_axes x0 x1 x2 x3 x4 x5 xt xr xw xx xy x_ok x_arm), I).
  rewrite (Z0 x1), (Z0 x2), (Z0 x4) by (cbn; auto 10). rewrite fmul_id_l, !fmul_id_r.
  unfold fmul at 1 2 3 4. cbn [fM].
  assert (A : forall a o, fM (asFrame (E ROTATION a o) (PI / 2)) = Rot2 a (PI / 2)) by reflexivity.
  unfold x0, x3, x5, xt. rewrite !A. unfold Rot2. cbn. rewrite !sin_PI2, !cos_PI2. repeat split; ring.
Qed.

(** the device asked for its pose at rest answers without a warning *)
Lemma zeros_rad : map degToRad (repeat 0 6) = repeat 0 6.
Proof. cbn [map repeat]. unfold degToRad. now rewrite !Rmult_0_l. Qed.
Lemma xs_home : exists xd qd s', invKin find_least xs xd (repeat 0 6) BASE_FRAME = Some (Some qd, s') /\ ik_error (sv_ik s') = E_NOERROR.
Proof.
  assert (EV : evaluate xp (repeat 0 6) = Some xt).
  { rewrite evaluate_some by reflexivity. f_equal. cbn [exps xp tool repeat]. unfold eval_terms. cbn [combine fold_left fst snd].
    assert (Z0 : forall e, In e (exps xp) -> asFrame e 0 = fid) by (intros e I; apply asFrame_0; apply (wrist_axes x0 x1 x2 x3 x4 x5 xt xr xw xx xy x_ok x_arm), I).
    rewrite (Z0 x0), (Z0 x1), (Z0 x2), (Z0 x3), (Z0 x4), (Z0 x5) by (cbn; auto 10). now rewrite !fmul_id_l. }
  destruct (loop_back 1000 (map Q2R x_draws) xc (map Ropp xlimits) xlimits xs xs [] xr xw xx xy xc_ok xs_open eq_refl ltac:(discriminate) xs_wrist (repeat 0 6) xt) as (s' & F & IV).
  - rewrite zeros_rad. split; [reflexivity|]. split; [reflexivity|]. pose proof PI_RGT_0. pose proof kdl_eps_pos.
    intros i x lo hi A B C. do 6 (destruct i as [|i]; [cbn in A, B, C; injection A as <-; injection B as <-; injection C as <-; lra|]). destruct i; discriminate.
  - rewrite zeros_rad. exact x_home_regular.
  - rewrite zeros_rad. destruct (fk_fromChain xc (repeat 0 6) xc_ok eq_refl) as (_ & f & F1 & F2). rewrite xc_poe, EV in F2. cbn [sv_chain xs]. congruence.
  - right. cbn. auto.
  - exists (frameToVector xt), (repeat 0 6), s'. split; [exact IV|].
    destruct (inv_parts find_least xs _ _ BASE_FRAME (vectorToFrame (frameToVector xt)) _ _ (or_introl eq_refl) eq_refl IV) as (_ & flag & cands & q & SV & _ & _ & ->).
    rewrite frame_round_trip in SV; [|apply rigid_trans|right; cbn; auto].
    destruct x_reachable as (cands' & SV' & _). cbn [sv_ik xs ik_poe ik_steps ik_rev] in SV. rewrite SV' in SV. assert (flag = true) as -> by congruence. reflexivity.
Qed.
Lemma xd_regular : regular (exps (ik_poe (sv_ik xs))) xr xw xx (map degToRad xd6).
Proof. rewrite xd_rad. exact x_regular. Qed.
