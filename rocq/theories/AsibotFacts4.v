(** Proofs about the solver of ASIBOT: inverse kinematics of poses. *)
From Coq Require Import Reals Lra Lia List Bool Arith.
From Verif Require Import Kdl KdlFacts KdlRot KdlRotFacts Trig TrigFacts KinRep KinRepSpec KinRepFacts KinRepFacts2 KinRepFacts3 Asibot AsibotSpec AsibotFacts AsibotFacts2 AsibotFacts3.
Import ListNotations.
Open Scope R_scope.
Local Notation S := Datatypes.S.

Lemma minv_rot : forall m, rotation_matrix m -> minv m = mT m.
Proof.
  intros m RM. destruct (cofs m RM) as (C1 & C2 & C3 & C4 & C5 & C6 & C7 & C8 & C9). destruct RM as [_ D].
  unfold minv, mT. rewrite D, Rinv_1. f_equal; lra.
Qed.
Lemma luinv_rigid : forall h, rigid h -> luinv h = finv h.
Proof. intros h RH. unfold luinv, finv. rewrite minv_rot by exact RH. reflexivity. Qed.
Lemma undo_tool : forall n t, rigid t -> fmul (fmul n t) (luinv t) = n.
Proof. intros n t RT. rewrite luinv_rigid, fmul_assoc, fmul_inv_r, fmul_id_r by exact RT. reflexivity. Qed.

Lemma inv_base : forall svd s xd guess n, svd_ok svd -> rigid (tool s) -> rigid n -> denotes xd (fmul n (tool s)) -> (hasFrame s = true -> regular_log (fM n)) ->
  invKin svd s xd guess BASE_FRAME = let '(_, b, g) := GetEulerZYZ (fM n) in core s guess (vx (fp n)) (vy (fp n)) (vz (fp n)) b g.
Proof.
  intros svd s xd guess n SV RT RN DX RG. unfold invKin. cbv zeta.
  assert (D : exists xn, (if hasFrame s then match vectorToMatrix xd with Some h => Some (matrixToVector svd (fmul h (luinv (frameTcp s)))) | None => None end else Some xd) = Some xn /\ denotes xn n).
  { unfold tool in *. destruct (hasFrame s) eqn:HF.
    - rewrite (to_matrix _ _ DX). eexists. split; [reflexivity|]. rewrite undo_tool by exact RT. apply matrix_denotes; auto.
    - rewrite fmul_id_r in DX. eauto. }
  destruct D as (xn & -> & DN). destruct (denotes_split xn n DN) as (r & -> & R1).
  destruct (decode_yz (fp n) r) as (m & E1 & E2). rewrite E1, E2, R1. unfold core. destruct (GetEulerZYZ (fM n)) as [[a b] g]. reflexivity.
Qed.
Lemma inv_tcp : forall svd s xd guess x0 h0 d, svd_ok svd -> fwdKin svd s guess = Some x0 -> denotes x0 h0 -> denotes xd d -> regular_log (fM (fmul h0 d)) ->
  exists xb, denotes xb (fmul h0 d) /\ invKin svd s xd guess TCP_FRAME = invKin svd s xb guess BASE_FRAME.
Proof.
  intros svd s xd guess x0 h0 d SV FK D0 DD RG. exists (matrixToVector svd (fmul h0 d)). split.
  - apply matrix_denotes; auto. apply rot_mm; [apply (denotes_rigid _ _ D0)|apply (denotes_rigid _ _ DD)].
  - unfold invKin. rewrite FK. unfold changeOrigin. rewrite (to_matrix _ _ D0), (to_matrix _ _ DD). reflexivity.
Qed.
Lemma pitch_of : forall m, rotation_matrix m -> let '(a, b, g) := GetEulerZYZ m in Rabs (cos b - m22 m) <= tiny /\ (Rabs (m22 m) <= 1 - tiny -> cos b = m22 m /\ 0 < b < PI).
Proof.
  intros m RM. pose proof (GetZYZ_generic m RM) as G. pose proof (zyz_bounds m RM) as B. unfold GetEulerZYZ in *.
  destruct (rows_cols m RM) as [(A1 & A2 & A3 & A4 & A5 & A6) _].
  assert (T0 : 0 < tiny) by (unfold tiny; lra).
  destruct (Rltb (1 - tiny) (Rabs (m22 m))) eqn:E.
  - apply Rltb_true in E. assert (M1 : -1 <= m22 m <= 1) by nra. destruct (Rltb 0 (m22 m)) eqn:E2.
    + apply Rltb_true in E2. rewrite Rabs_pos_eq in E by lra. rewrite cos_0. split; [rewrite Rabs_pos_eq; lra|intros L; rewrite Rabs_pos_eq in L; lra].
    + apply Rltb_false in E2. rewrite Rabs_left1 in E by lra. rewrite cos_PI. split; [rewrite Rabs_left1; lra|intros L; rewrite Rabs_left1 in L; lra].
  - apply Rltb_false in E. specialize (G E). cbv beta iota zeta in B. destruct B as [B _].
    set (b := atan2 (sqrt (m20 m * m20 m + m21 m * m21 m)) (m22 m)) in *.
    assert (CB : cos b = m22 m) by (apply (f_equal m22) in G; cbn in G; ring_simplify in G; lra).
    split; [rewrite CB; unfold Rminus; rewrite Rplus_opp_r, Rabs_R0; lra|]. intros L. split; [exact CB|].
    split.
    + destruct (Req_dec b 0) as [Z|Z]; [|lra]. rewrite Z, cos_0 in CB. rewrite <- CB, Rabs_R1 in L. lra.
    + destruct (Req_dec b PI) as [Z|Z]; [|lra]. rewrite Z, cos_PI in CB. rewrite <- CB in L. rewrite Rabs_left in L; lra.
Qed.
Theorem inverse : forall svd s xd guess n q, well_made s -> svd_ok svd -> rigid (tool s) -> rigid n -> denotes xd (fmul n (tool s)) -> (hasFrame s = true -> regular_log (fM n)) ->
  invKin svd s xd guess BASE_FRAME = Some (Some q) ->
  within_tolerance q (qMin s) (qMax s) /\ one_turn q /\
  exists q', close q' q /\ fp (flange s q') = fp n /\ Rabs (m22 (fM (flange s q')) - m22 (fM n)) <= tiny /\
    (yz_pose n -> fmul (flange s q') (tool s) = fmul n (tool s)).
Proof.
  intros svd s xd guess n q WM SV RT RN DX RG H. rewrite (inv_base svd s xd guess n) in H by auto.
  pose proof (zyz_bounds (fM n) RN) as B. pose proof (pitch_of (fM n) RN) as P. pose proof (GetZYZ_generic (fM n) RN) as G. destruct (GetEulerZYZ (fM n)) as [[a b] g]. destruct B as [B1 B2].
  destruct (core_sound s guess _ _ _ b g q WM B1 B2 H) as (C1 & C2 & q' & C3 & C4).
  split; [exact C1|]. split; [exact C2|]. exists q'. split; [exact C3|]. rewrite C4. destruct n as [m [px py pz]]. cbn [fp fM vx vy vz] in *.
  split; [reflexivity|]. split.
  - replace (m22 (EulerZYZ (atan2 py px) b g)) with (cos b) by (cbn; ring). apply P.
  - intros (b0 & g0 & Hb & Hc & E). cbn [fM fp vx vy] in E. f_equal. f_equal.
    assert (M22 : m22 m = cos b0) by (rewrite E; cbn; ring). rewrite <- M22 in Hc. specialize (G Hc). destruct P as [_ P]. specialize (P Hc). destruct P as [P1 P2].
    assert (EQ : EulerZYZ a b g = EulerZYZ (atan2 py px) b0 g0) by (rewrite G; exact E).
    pose proof (sin_gt_0 b0 (proj1 Hb) (proj2 Hb)) as S0. pose proof (sin_gt_0 b (proj1 P2) (proj2 P2)) as S1.
    destruct (zyz_unique _ _ _ _ _ _ S0 EQ) as (k & [->| ->] & K1 & K2 & K3 & K4 & K5 & K6); [|lra].
    rewrite <- G. unfold EulerZYZ, RotZ. rewrite K3, K4, !Rmult_1_l. reflexivity.
Qed.
Theorem found : forall svd s xd guess q0, well_made s -> svd_ok svd -> 0 < A1 s -> 0 < A2 s -> 0 <= A3 s -> (5 <= length guess)%nat -> rigid (tool s) ->
  denotes xd (fmul (flange s q0) (tool s)) -> (hasFrame s = true -> regular_log (fM (flange s q0))) ->
  within q0 (qMin s) (qMax s) -> one_turn q0 -> ~ wrist_at_shoulder s q0 -> yz_pose (flange s q0) ->
  exists q, invKin svd s xd guess BASE_FRAME = Some (Some q).
Proof.
  intros svd s xd guess q0 WM SV P1 P2 P3 LG RT DX RG WI OT NS (b0 & g0 & Hb & Hc & E).
  assert (RN : rigid (flange s q0)) by (destruct (five q0 (proj1 WI)) as (v1 & v2 & v3 & v4 & v5 & ->); apply arm_rigid).
  rewrite (inv_base svd s xd guess (flange s q0)) by auto. pose proof (zyz_bounds _ RN) as B. pose proof (pitch_of _ RN) as P. pose proof (GetZYZ_generic _ RN) as G.
  destruct (flange s q0) as [m [px py pz]] eqn:FL. unfold rigid in RN. cbn [fp fM vx vy vz] in *. destruct (GetEulerZYZ m) as [[a b] g].
  assert (M22 : m22 m = cos b0) by (rewrite E; cbn; ring). rewrite <- M22 in Hc. specialize (G Hc). destruct P as [_ P]. specialize (P Hc). destruct P as [P4 P5].
  apply (core_complete s guess q0); auto; [apply B|]. rewrite FL. f_equal.
  assert (EQ : EulerZYZ a b g = EulerZYZ (atan2 py px) b0 g0) by (rewrite G; exact E).
  pose proof (sin_gt_0 b0 (proj1 Hb) (proj2 Hb)) as S0. pose proof (sin_gt_0 b (proj1 P5) (proj2 P5)) as S1.
  destruct (zyz_unique _ _ _ _ _ _ S0 EQ) as (k & [->| ->] & K1 & K2 & K3 & K4 & K5 & K6); [|lra].
  rewrite <- G. unfold EulerZYZ, RotZ. rewrite K3, K4, !Rmult_1_l. reflexivity.
Qed.
(** whatever the target, the answer without undefined behaviour *)
Theorem answers : forall svd s xd guess n, well_made s -> svd_ok svd -> rigid (tool s) -> rigid n -> denotes xd (fmul n (tool s)) -> (hasFrame s = true -> regular_log (fM n)) ->
  (5 <= length guess)%nat -> exists o, invKin svd s xd guess BASE_FRAME = Some o.
Proof.
  intros svd s xd guess n WM SV RT RN DX RG LG. rewrite (inv_base svd s xd guess n) by auto.
  pose proof (zyz_bounds (fM n) RN) as B. destruct (GetEulerZYZ (fM n)) as [[a b] g]. destruct B as [B1 B2].
  destruct (core_spec s guess (vx (fp n)) (vy (fp n)) (vz (fp n)) b g WM B1 B2) as [[-> _]|(t1u & t1d & t2 & _ & _ & _ & _ & _ & _ & RG0 & ->)]; [eauto|].
  set (cs := cand _ _ _ _ _ _ _) in *. destruct (existsb p_valid _) eqn:V; [|eauto].
  destruct (chosen guess (map (valid_pose (qMin s) (qMax s)) cs) LG V) as (p & ->); [|eauto].
  intros p IP. apply in_map_iff in IP. destruct IP as ([c' o'] & <- & I'). destruct (RG0 c' o' I') as [L' _]. exists (map normalizeAngle c'). split; [reflexivity|rewrite map_length; exact L'].
Qed.
Lemma yz_decoded : forall n, rigid n -> yz_pose n -> let '(_, b, g) := GetEulerZYZ (fM n) in
  0 < b < PI /\ - PI < g <= PI /\ n = F (EulerZYZ (atan2 (vy (fp n)) (vx (fp n))) b g) (V (vx (fp n)) (vy (fp n)) (vz (fp n))).
Proof.
  intros n RN (b0 & g0 & Hb & Hc & E). pose proof (zyz_bounds _ RN) as B. pose proof (pitch_of _ RN) as P. pose proof (GetZYZ_generic _ RN) as G.
  destruct n as [m [px py pz]]. unfold rigid in RN. cbn [fp fM vx vy vz] in *. destruct (GetEulerZYZ m) as [[a b] g].
  assert (M22 : m22 m = cos b0) by (rewrite E; cbn; ring). rewrite <- M22 in Hc. specialize (G Hc). destruct P as [_ P]. specialize (P Hc). destruct P as [P4 P5].
  split; [exact P5|]. split; [apply B|]. f_equal.
  assert (EQ : EulerZYZ a b g = EulerZYZ (atan2 py px) b0 g0) by (rewrite G; exact E).
  pose proof (sin_gt_0 b0 (proj1 Hb) (proj2 Hb)) as S0. pose proof (sin_gt_0 b (proj1 P5) (proj2 P5)) as S1.
  destruct (zyz_unique _ _ _ _ _ _ S0 EQ) as (k & [->| ->] & K1 & K2 & K3 & K4 & K5 & K6); [|lra].
  rewrite <- G. unfold EulerZYZ, RotZ. rewrite K3, K4, !Rmult_1_l. reflexivity.
Qed.
Theorem shortest : forall svd s xd guess n q, well_made s -> svd_ok svd -> 0 < A1 s -> 0 < A2 s -> (5 <= length guess)%nat -> rigid (tool s) -> rigid n ->
  denotes xd (fmul n (tool s)) -> (hasFrame s = true -> regular_log (fM n)) -> yz_pose n ->
  invKin svd s xd guess BASE_FRAME = Some (Some q) ->
  exists best best', close best' best /\ flange s best' = n /\ within_tolerance best (qMin s) (qMax s) /\ one_turn best /\
    (forall q0, within q0 (qMin s) (qMax s) -> one_turn q0 -> ~ wrist_at_shoulder s q0 -> flange s q0 = n -> distance guess best <= distance guess q0 + 5 / 1000) /\
    (q = best \/ second guess q <= second guess best).
Proof.
  intros svd s xd guess n q WM SV P1 P2 LG RT RN DX RG YZ H. rewrite (inv_base svd s xd guess n) in H by auto.
  pose proof (yz_decoded n RN YZ) as D. destruct (GetEulerZYZ (fM n)) as [[a b] g]. destruct D as (D1 & D2 & D3).
  pose proof (core_shortest s guess _ _ _ b g q WM P1 P2 LG D1 D2 H) as K. rewrite <- D3 in K. exact K.
Qed.
Theorem inverse_tcp : forall svd s xd guess x0 h0 d n q, well_made s -> svd_ok svd -> rigid (tool s) -> rigid n ->
  fwdKin svd s guess = Some x0 -> denotes x0 h0 -> denotes xd d -> regular_log (fM (fmul h0 d)) -> fmul n (tool s) = fmul h0 d -> (hasFrame s = true -> regular_log (fM n)) ->
  invKin svd s xd guess TCP_FRAME = Some (Some q) ->
  within_tolerance q (qMin s) (qMax s) /\ one_turn q /\
  exists q', close q' q /\ fp (flange s q') = fp n /\ Rabs (m22 (fM (flange s q')) - m22 (fM n)) <= tiny /\
    (yz_pose n -> fmul (flange s q') (tool s) = fmul h0 d).
Proof.
  intros svd s xd guess x0 h0 d n q WM SV RT RN FK D0 DD RG EN RG2 H.
  destruct (inv_tcp svd s xd guess x0 h0 d SV FK D0 DD RG) as (xb & DB & EB). rewrite EB in H. rewrite <- EN in DB |- *.
  apply (inverse svd s xb guess n q); auto.
Qed.
Theorem other_frames : forall svd s xd guess, invKin svd s xd guess OTHER_FRAME = Some None.
Proof. reflexivity. Qed.
