(** Proofs about keyboardController: the poses that are streamed. *)
From Coq Require Import Reals List Bool String Ascii ZArith Lra Lia.
From Verif Require Import Kdl KdlFacts KdlRot Trig TrigFacts KdlRotFacts KinRep Vocab Keyboard KeyboardSpec KeyboardFacts KeyboardFacts2 KeyboardFacts3 KeyboardFacts4 KeyboardFacts5 KeyboardFacts6.
Import ListNotations.
Open Scope R_scope.
Local Notation S := Datatypes.S.
Local Notation length := List.length.
Local Notation concat := List.concat.

Lemma GetRotAngle_Rot2 : forall a t, unit a -> 0 < t < PI -> kdl_eps <= sin t -> GetRotAngle (Rot2 a t) = (a, t).
Proof.
  intros a t U T S. pose proof kdl_eps_pos as EP.
  assert (SK : sk (Rot2 a t) = vscale (2 * sin t) a) by (unfold sk, Rot2; vring).
  assert (TR : (tr (Rot2 a t) - 1) / 2 = cos t).
  { replace (tr (Rot2 a t)) with (3 * cos t + (1 - cos t) * dot a a) by (unfold tr, Rot2, dot; cbn [m00 m11 m22]; ring). rewrite U. field. }
  assert (NS : norm (sk (Rot2 a t)) = 2 * sin t).
  { rewrite SK, norm_scale, (unit_norm a U), Rabs_pos_eq by lra. ring. }
  unfold GetRotAngle.
  assert (G : Rltb (Rabs (m01 (Rot2 a t) - m10 (Rot2 a t))) kdl_eps && Rltb (Rabs (m02 (Rot2 a t) - m20 (Rot2 a t))) kdl_eps && Rltb (Rabs (m12 (Rot2 a t) - m21 (Rot2 a t))) kdl_eps = false).
  { destruct (_ && _ && _) eqn:E; auto. apply andb_true_iff in E as [E E3]. apply andb_true_iff in E as [E1 E2].
    apply Rltb_true in E1, E2, E3. exfalso.
    assert (D : dot (sk (Rot2 a t)) (sk (Rot2 a t)) <= 3 * (kdl_eps * kdl_eps)).
    { unfold dot, sk; cbn [vx vy vz]. apply Rabs_def2 in E1, E2, E3. nra. }
    rewrite <- norm_sqr, NS in D. nra. }
  rewrite G. cbn [fst snd]. fold (sk (Rot2 a t)) (tr (Rot2 a t)). rewrite TR, NS, SK, normalize_scaled by (auto; lra).
  replace (2 * sin t / 2) with (1 * sin t) by field. rewrite <- (Rmult_1_l (cos t)), atan2_unique by lra. reflexivity.
Qed.
Lemma GetRotAngle_id : GetRotAngle mid = (V 0 0 1, 0).
Proof.
  pose proof kdl_eps_pos. unfold GetRotAngle, mid; cbn [m00 m01 m02 m10 m11 m12 m20 m21 m22].
  replace (0 - 0) with 0 by ring. replace (0 + 0) with 0 by ring. replace (1 + 1 + 1 - 3) with 0 by ring. rewrite Rabs_R0.
  replace (Rltb 0 kdl_eps) with true by (symmetry; apply Rltb_true; lra). replace (Rltb 0 (10 * kdl_eps)) with true by (symmetry; apply Rltb_true; lra). reflexivity.
Qed.

Lemma norm_of_zero : norm vzero = 0.
Proof. unfold norm. rewrite dot_zero_l. apply sqrt_0. Qed.
Lemma scaled_self : forall w, kdl_eps <= norm w -> vscale (norm w) (normalize w) = w.
Proof.
  intros w H. pose proof kdl_eps_pos. unfold normalize. replace (Rltb (norm w) kdl_eps) with false by (symmetry; apply Rltb_false; lra).
  rewrite vscale_vscale. replace (norm w * / norm w) with 1 by (field; lra). apply vscale_1.
Qed.

(** the turn as seen from the start of the line *)
Lemma seen_turn : forall R0 w, rotation_matrix R0 -> w = vzero \/ (norm w < PI /\ kdl_eps <= sin (norm w) /\ kdl_eps <= norm w) ->
  exists a, GetRotAngle (mm (mT R0) (mm (Rot w (norm w)) R0)) = (a, norm w) /\
  forall t, mm R0 (Rot2 a (t * norm w)) = mm (Rot w (t * norm w)) R0.
Proof.
  intros R0 w RM [->|(B & S & L)].
  - exists (V 0 0 1). rewrite norm_of_zero. unfold Rot. split.
    + rewrite Rot2_zero, mm_id_l, (rot_TM R0 RM). apply GetRotAngle_id.
    + intros t. rewrite Rmult_0_r, !Rot2_zero, mm_id_l, mm_id_r. reflexivity.
  - pose proof kdl_eps_pos. exists (mv (mT R0) (normalize w)). assert (rotation_matrix (mT R0)) as RT by (apply rot_mT; exact RM). unfold Rot.
    assert (forall t, Rot2 (mv (mT R0) (normalize w)) t = mm (mT R0) (mm (Rot2 (normalize w) t) R0)) as C.
    { intros t. rewrite Rot2_conj by exact RT. rewrite mT_mT. reflexivity. }
    split.
    + rewrite <- C. apply GetRotAngle_Rot2; auto; [|lra]. unfold unit. rewrite dot_rot by exact RT. apply normalize_unit.
    + intros t. rewrite C, <- mm_assoc, (rot_MT R0 RM), mm_id_l. reflexivity.
Qed.

Lemma Reqb_of : forall a b, a <> b -> Reqb a b = false.
Proof. intros a b H. destruct (Reqb a b) eqn:E; auto. apply Reqb_true in E. contradiction. Qed.

(** a line followed for the time [t]: the displacement is the velocity times [t], until ten units of path have been covered *)
Lemma line_spec : forall R0 p0 v w t0 t, rotation_matrix R0 ->
  (v = vzero \/ kdl_eps <= norm v) -> (w = vzero \/ (norm w < PI /\ kdl_eps <= sin (norm w) /\ kdl_eps <= norm w)) ->
  ~ (v = vzero /\ w = vzero) -> 0 <= t -> Rmax (norm v) (norm w) <= 10 ->
  let T := Rmin t (10 / Rmax (norm v) (norm w)) in
  line_pos (KLine (F R0 p0) (Tw v w) t0) t = Some (F (mm (Rot w (T * norm w)) R0) (vadd p0 (vscale T v))).
Proof.
  intros R0 p0 v w t0 t RM HV HW NZ T0 L10 T. pose proof kdl_eps_pos as KP. unfold line_pos. cbn [l_start l_twist fM fp t_vel t_rot].
  destruct (seen_turn R0 w RM HW) as (a & -> & C).
  assert (forall x, vscale x (vscale (norm v) (normalize v)) = vscale x v) as SV.
  { intros x. destruct HV as [->|HV]; [rewrite norm_of_zero|rewrite scaled_self by exact HV; reflexivity].
    rewrite vscale_vscale, Rmult_0_r. unfold vscale, vzero. cbn. f_equal; ring. }
  replace (if Rltb (norm v) kdl_eps then 0 else norm v) with (norm v).
  2:{ destruct HV as [->|HV]; [rewrite norm_of_zero; destruct (Rltb 0 kdl_eps); reflexivity|].
      replace (Rltb (norm v) kdl_eps) with false by (symmetry; apply Rltb_false; lra). reflexivity. }
  assert (forall len, 0 < len <= 10 -> len = Rmax (norm v) (norm w) ->
    (if Rltb t 0 then 0 else if Rltb (10 / (if Rltb 10 len then 10 else len)) t then 10 else (if Rltb 10 len then 10 else len) * t) = T * len) as ES.
  { intros len LP EL. replace (Rltb t 0) with false by (symmetry; apply Rltb_false; lra). replace (Rltb 10 len) with false by (symmetry; apply Rltb_false; lra).
    unfold T. rewrite <- EL. unfold Rmin. destruct (Rltb (10 / len) t) eqn:E; [apply Rltb_true in E|apply Rltb_false in E]; destruct (Rle_dec t (10 / len)); try lra.
    field; lra. }
  pose proof (norm_nonneg v) as N1. pose proof (norm_nonneg w) as N2.
  destruct (negb (Reqb (norm w) 0) && Rltb (norm v) (norm w)) eqn:E.
  - apply andb_true_iff in E. destruct E as [E1 E2]. apply Rltb_true in E2.
    assert (norm w = Rmax (norm v) (norm w)) as EM by (rewrite Rmax_right; lra).
    rewrite Reqb_of by lra. rewrite (ES (norm w)); [|lra|exact EM]. rewrite Rmult_1_r, C. f_equal. f_equal. f_equal.
    replace (T * norm w * (norm v / norm w)) with (T * norm v) by (field; lra). rewrite <- vscale_vscale. apply SV.
  - assert (norm w <= norm v) as LW.
    { apply andb_false_iff in E. destruct E as [E|E]; [|apply Rltb_false in E; lra]. apply negb_false_iff, Reqb_true in E. lra. }
    assert (0 < norm v) as VP.
    { destruct HV as [->|HV]; [|lra]. rewrite norm_of_zero in LW. exfalso. apply NZ. split; auto. destruct HW as [|(_ & _ & HW)]; auto. lra. }
    assert (norm v = Rmax (norm v) (norm w)) as EM by (rewrite Rmax_left; lra).
    rewrite (Reqb_of (norm v)) by lra. cbn [negb]. rewrite Reqb_of by lra. rewrite (ES (norm v)); [|lra|exact EM].
    replace (T * norm v * (norm w / norm v)) with (T * norm w) by (field; lra). rewrite C, Rmult_1_r, <- vscale_vscale, SV. reflexivity.
Qed.

(** ** The velocities of the keys are far from the tolerances *)
Lemma norm_ge : forall a k, 0 <= k -> k <= Rabs (vx a) \/ k <= Rabs (vy a) \/ k <= Rabs (vz a) -> k <= norm a.
Proof.
  intros a k K H. pose proof (norm_nonneg a) as N. pose proof (norm_sqr a) as Q. unfold dot in Q.
  assert (forall x, k <= Rabs x -> k * k <= x * x) as SQ by (intros x HX; rewrite <- (abs_sq x); apply Rmult_le_compat; lra).
  pose proof (Rle_0_sqr (vx a)). pose proof (Rle_0_sqr (vy a)). pose proof (Rle_0_sqr (vz a)). unfold Rsqr in *.
  apply Rnot_lt_le. intros L. assert (norm a * norm a < k * k) by (apply Rmult_le_0_lt_compat; lra).
  destruct H as [H|[H|H]]; apply SQ in H; lra.
Qed.
Lemma int_part : forall z k, 0 <= k -> z = 0%Z \/ k <= Rabs (IZR z * k).
Proof.
  intros z k K. destruct (Z.eq_dec z 0) as [|N]; auto. right. rewrite Rabs_mult, (Rabs_pos_eq k) by lra. rewrite <- abs_IZR.
  assert (1 <= IZR (Z.abs z)) by (apply IZR_le; lia). nra.
Qed.
Lemma grid : forall a b c k, 0 <= k -> let u := V (IZR a * k) (IZR b * k) (IZR c * k) in (a = 0 /\ b = 0 /\ c = 0)%Z \/ k <= norm u.
Proof.
  intros a b c k K u. destruct (int_part a k K) as [->|H]; [|right; apply norm_ge; auto].
  destruct (int_part b k K) as [->|H]; [|right; apply norm_ge; auto]. destruct (int_part c k K) as [->|H]; [left; auto|right; apply norm_ge; auto].
Qed.
Lemma sin_floor : forall x, 1 / 100 <= x <= 29 / 10 -> kdl_eps <= sin x.
Proof.
  intros x [L1 L2]. pose proof PI2_3_2 as P. unfold PI2 in P. pose proof PI_4 as P4.
  assert (kdl_eps <= sin (1 / 100)) as B.
  { pose proof (sin_bound (1 / 100) 0 ltac:(lra) ltac:(lra)) as [L _]. unfold sin_approx, sum_f_R0, sin_term in L. cbn in L. unfold kdl_eps. lra. }
  destruct (Rle_or_lt x (PI / 2)) as [H|H].
  - assert (sin (1 / 100) <= sin x) by (apply sin_incr_1; lra). lra.
  - rewrite <- sin_PI_x. assert (sin (1 / 100) <= sin (PI - x)) by (apply sin_incr_1; lra). lra.
Qed.

Lemma keep_step : forall b c ev s c2 s2, k_step c ev s = Some (c2, s2) -> k_cart c = true -> k_board c = b -> keeps b ev ->
  k_ctl s2 = k_ctl s /\ k_susp s2 = k_susp s /\ k_tcp s2 = k_tcp s /\ k_delta s2 = k_delta s /\ k_traj s2 = k_traj s /\ k_cv s2 = k_cv s.
Proof.
  intros b c ev s c2 s2 H KC KB K. destruct ev as [k e|t]; [|apply tick_state in H; subst; auto 8].
  cbn [k_step] in H. destruct (k_over s); [apply k_some, k_pair in H; destruct H as [_ <-]; auto 8|].
  assert (s2 = s \/ exists a, s2 = set_act a s) as ES.
  { unfold pressKey in H. destruct K as [KK|[-> EB]].
    - cbn in KK. destruct KK as [<-|[<-|[<-|[<-|[]]]]]; cbn in H; apply k_some in H; unfold printCart, actuateTool in H; rewrite ?KC in H; cbn in H;
        apply k_pair in H; destruct H as [_ <-]; auto; destruct (e_act e 0); eauto.
    - cbn in H. unfold printJoints in H. rewrite KB, EB in H. cbn in H. apply k_some, k_pair in H. destruct H as [_ <-]. auto. }
  destruct ES as [->|[a ->]]; cbn; auto 8.
Qed.
Lemma keep_run : forall b c evs s css s2, k_run c evs s = Some (css, s2) -> k_cart c = true -> k_board c = b -> Forall (keeps b) evs ->
  k_ctl s2 = k_ctl s /\ k_susp s2 = k_susp s /\ k_tcp s2 = k_tcp s /\ k_delta s2 = k_delta s /\ k_traj s2 = k_traj s /\ k_cv s2 = k_cv s.
Proof.
  intros b c evs. induction evs as [|ev evs IH] using rev_ind; intros s css s2 H KC KB K.
  - cbn in H. apply k_some, k_pair in H. destruct H as [_ <-]. auto 8.
  - apply k_run_snoc in H. destruct H as (css1 & s1 & cs & R1 & ST & _). apply Forall_app in K. destruct K as [K1 K2]. inversion K2; subst.
    destruct (IH _ _ _ R1 KC eq_refl K1) as (A1 & A2 & A3 & A4 & A5 & A6).
    destruct (keep_step _ _ _ _ _ _ ST KC eq_refl H1) as (B1 & B2 & B3 & B4 & B5 & B6). repeat split; congruence.
Qed.

Lemma presses_keep : forall b evs2 evs1 n, presses b evs1 n -> Forall (keeps b) evs2 -> presses b (evs1 ++ evs2) n.
Proof.
  intros b evs2. induction evs2 as [|ev evs2 IH] using rev_ind; intros evs1 n P K; [rewrite app_nil_r; exact P|].
  apply Forall_app in K. destruct K as [K1 K2]. inversion K2 as [|? ? KE _]; subst. rewrite app_assoc.
  destruct ev as [k e|t]; [apply pr_keep|apply pr_tick]; auto.
Qed.
Lemma keep_running : forall b evs, Forall (keeps b) evs -> running evs.
Proof.
  intros b evs. apply Forall_impl. intros [k e|t]; auto. intros K ->. destruct K as [K|[K _]]; [cbn in K; intuition discriminate|discriminate K].
Qed.
Lemma cart_running : forall k e i sg, cart_key k i sg -> running [EKey k e].
Proof. intros k e i sg CK. constructor; auto. intros ->. destruct CK as [[E _]|[E _]]; apply nth_error_In in E; cbn in E; intuition discriminate. Qed.

(** ** C84 *)
Lemma stream_still : forall r x cs0 c s evs t css s' n, k_configure r (Some x) = Some (cs0, c, s) -> c_pose x = true -> running evs -> answering evs ->
  presses (match r with Some _ => true | None => false end) evs n -> zero_n n ->
  k_run c (evs ++ [ETick t]) s = Some (css, s') -> exists css1, css = css1 ++ [[]].
Proof.
  intros r x cs0 c s evs t css s' n HC CP RN AN PR Z HR. apply k_run_snoc in HR. destruct HR as (css1 & s1 & cs & R1 & ST & ->). exists css1.
  pose proof (spd_run _ _ _ _ _ _ _ _ _ HC R1 RN (fun _ => AN) PR) as SP. pose proof (core_run _ _ _ _ _ _ _ _ HC R1) as C.
  pose proof (configured _ _ _ _ _ HC) as (_ & (KC & KT & _) & _). rewrite CP in KT.
  assert (k_susp s1 = true) as SU.
  { destruct (k_ctl s1) eqn:E; [apply (co_susp _ _ _ C); congruence|apply (co_susp _ _ _ C); congruence|apply (sp_go _ _ _ SP); auto]. }
  cbn [k_step] in ST. rewrite SU, andb_false_r in ST. apply k_some, k_pair in ST. destruct ST as [<- _]. reflexivity.
Qed.

Lemma last_key : forall r x cs0 c s evs1 k e i sg evs2 t css s' n f0 f, k_configure r (Some x) = Some (cs0, c, s) -> c_pose x = true -> c_frame x = Some (IZR f0) ->
  let b := match r with Some _ => true | None => false end in
  running evs1 -> answering (evs1 ++ [EKey k e]) -> cart_key k i sg -> Forall (keeps b) evs2 ->
  presses b (evs1 ++ [EKey k e]) n -> ~ zero_n n -> frame_in_use f0 evs1 f ->
  k_run c ((evs1 ++ [EKey k e]) ++ evs2 ++ [ETick t]) s = Some (css, s') ->
  exists css1 cs s1, css = css1 ++ [cs] /\ thread_run s1 t = Some cs /\ k_tcp s1 = Z.eqb f TCP_FRAME /\
    (f = TCP_FRAME -> k_delta s1 = map (fun y => c_period x / 1000 * y) (velocity n)) /\
    (f <> TCP_FRAME -> exists y, e_stat e = Some y /\ k_traj s1 = Some (KLine (vectorToFrame y) (vectorToTwist (velocity n)) (e_now e))).
Proof.
  intros r x cs0 c s evs1 k e i sg evs2 t css s' n f0 f HC CP CF b RN AN CK KE PR NZ FR HR.
  rewrite app_assoc in HR. apply k_run_snoc in HR. destruct HR as (css1 & s2 & cs & R2 & ST & ->). exists css1, cs, s2. split; auto.
  rewrite k_run_app in R2. destruct (k_run c (evs1 ++ [EKey k e]) s) as [[css3 s3]|] eqn:R3; [|discriminate].
  destruct (k_run c evs2 s3) as [[css4 s4]|] eqn:R4; [|discriminate]. apply k_some, k_pair in R2. destruct R2 as [_ <-].
  pose proof (configured _ _ _ _ _ HC) as (BB & (KC & KT & KP & KF & _) & _ & O & _). rewrite CP in KT.
  assert (k_board c = b) as KB by (unfold b; destruct r; apply BB).
  assert (running (evs1 ++ [EKey k e])) as RN3 by (apply Forall_app; split; auto; eapply cart_running; eauto).
  pose proof (spd_run _ _ _ _ _ _ _ _ _ HC R3 RN3 (fun _ => AN) PR) as SP.
  destruct (keep_run _ _ _ _ _ _ R4 KC KB KE) as (K1 & K2 & K3 & K4 & K5 & K6).
  apply k_run_snoc in R3. destruct R3 as (css5 & s5 & cs5 & R5 & ST5 & _). cbn [k_step] in ST5. rewrite (over_run _ _ _ _ _ R5 O RN) in ST5.
  pose proof (core_run _ _ _ _ _ _ _ _ HC R5) as C5.
  assert (k_fr s = f0) as F0.
  { assert (IZR f0 = IZR (k_fr s)) as E by congruence. apply eq_IZR in E. auto. }
  pose proof (frame_run _ _ _ _ _ _ _ R5 O RN KC F0 FR) as F5.
  assert (k_tcp s5 = Z.eqb f TCP_FRAME) as T5 by (rewrite (co_tcp _ _ _ C5), KT, F5; reflexivity).
  unfold pressKey in ST5. destruct (key_cart _ _ _ CK) as (o & EK & _ & _). rewrite EK in ST5. apply k_some in ST5. apply cart_spec in ST5.
  apply Forall_app in AN. destruct AN as [_ AN]. apply Forall_inv in AN. destruct AN as [A1 A2].
  assert (k_susp s3 = false -> thread_run s4 t = Some cs) as TH.
  { intros E. cbn [k_step] in ST. rewrite K2, E, KT in ST. cbn [andb negb] in ST. destruct (thread_run s4 t); [|discriminate]. apply k_some, k_pair in ST. destruct ST as [-> _]. reflexivity. }
  destruct ST5 as [c2 s2 F P|pre s2 EC ET ST5 Z|pre s2 v EC ET ST5 EV|pre s2 EC ET ST5 Z F|pre s2 EC ET ST5 Z T|pre s2 x0 EC ET ST5 Z T X]; try congruence.
  - exfalso. apply NZ, (sp_go _ _ _ SP); auto.
  - exfalso. destruct F as [[_ F]|[_ F]]; congruence.
  - pose proof (sp_cv _ _ _ SP) as SC. cbn in SC. cbn in K3, K4.
    split; [apply TH; reflexivity|]. split; [rewrite K3, (started_tcp _ _ _ _ _ _ ST5); exact T5|]. split.
    + intros _. rewrite K4, SC, KP. reflexivity.
    + intros NF. rewrite T in T5. symmetry in T5. apply Z.eqb_eq in T5. contradiction.
  - pose proof (sp_cv _ _ _ SP) as SC. cbn in SC. cbn in K3, K5.
    split; [apply TH; reflexivity|]. split; [rewrite K3, (started_tcp _ _ _ _ _ _ ST5); exact T5|]. split.
    + intros ->. rewrite T in T5. cbn in T5. discriminate T5.
    + intros _. exists x0. rewrite K5, SC. auto.
Qed.

Lemma stream_tcp : forall r x cs0 c s evs1 k e i sg evs2 t css s' n f0, k_configure r (Some x) = Some (cs0, c, s) -> c_pose x = true -> c_frame x = Some (IZR f0) ->
  let b := match r with Some _ => true | None => false end in
  running evs1 -> answering (evs1 ++ [EKey k e]) -> cart_key k i sg -> Forall (keeps b) evs2 ->
  presses b (evs1 ++ [EKey k e]) n -> ~ zero_n n -> frame_in_use f0 evs1 TCP_FRAME ->
  k_run c ((evs1 ++ [EKey k e]) ++ evs2 ++ [ETick t]) s = Some (css, s') ->
  exists css1, css = css1 ++ [[KPose (map (fun y => c_period x / 1000 * y) (velocity n))]].
Proof.
  intros r x cs0 c s evs1 k e i sg evs2 t css s' n f0 HC CP CF b RN AN CK KE PR NZ FR HR.
  destruct (last_key _ _ _ _ _ _ _ _ _ _ _ _ _ _ _ _ _ HC CP CF RN AN CK KE PR NZ FR HR) as (css1 & cs & s1 & -> & TH & TC & D & _).
  exists css1. unfold thread_run in TH. rewrite TC in TH. cbn in TH. apply k_some in TH. subst cs. rewrite D by reflexivity. reflexivity.
Qed.

Lemma stream_base : forall r x cs0 c s evs1 k e i sg evs2 t css s' n f0 y, k_configure r (Some x) = Some (cs0, c, s) -> c_pose x = true -> c_frame x = Some (IZR f0) ->
  let b := match r with Some _ => true | None => false end in
  running evs1 -> answering (evs1 ++ [EKey k e]) -> cart_key k i sg -> Forall (keeps b) evs2 ->
  presses b (evs1 ++ [EKey k e]) n -> ~ zero_n n -> frame_in_use f0 evs1 BASE_FRAME ->
  e_stat e = Some y -> length y = 6%nat -> e_now e <= t ->
  norm (plist (velocity n)) <= 10 -> norm (rlist (velocity n)) <= 29 / 10 ->
  k_run c ((evs1 ++ [EKey k e]) ++ evs2 ++ [ETick t]) s = Some (css, s') ->
  exists css1 z, css = css1 ++ [[KPose z]] /\
    carried y (velocity n) (Rmin (t - e_now e) (10 / Rmax (norm (plist (velocity n))) (norm (rlist (velocity n))))) z.
Proof.
  intros r x cs0 c s evs1 k e i sg evs2 t css s' n f0 y HC CP CF b RN AN CK KE PR NZ FR EY LY LT NV NW HR.
  destruct (last_key _ _ _ _ _ _ _ _ _ _ _ _ _ _ _ _ _ HC CP CF RN AN CK KE PR NZ FR HR) as (css1 & cs & s1 & -> & TH & TC & _ & D).
  destruct D as (y' & EY' & TR); [discriminate|]. assert (y' = y) as -> by congruence.
  unfold thread_run in TH. rewrite TC in TH. cbn [Z.eqb] in TH. replace (BASE_FRAME =? TCP_FRAME)%Z with false in TH by reflexivity. rewrite TR in TH. cbn [l_time] in TH.
  destruct y as [|y0 [|y1 [|y2 [|y3 [|y4 [|y5 [|]]]]]]]; try discriminate LY. cbn [vectorToFrame] in TH.
  change (vectorToTwist (velocity n)) with (Tw (plist (velocity n)) (rlist (velocity n))) in TH.
  set (v := plist (velocity n)) in *. set (w := rlist (velocity n)) in *.
  assert (0 <= 5 / 1000) as G5 by lra. assert (0 <= 1 / 100) as G1 by lra.
  assert (v = vzero /\ (n 0%nat = 0 /\ n 1%nat = 0 /\ n 2%nat = 0)%Z \/ kdl_eps <= norm v) as HV.
  { destruct (grid (n 0%nat) (n 1%nat) (n 2%nat) _ G5) as [Z|H]; [left; split; auto|right].
    - destruct Z as (Z0 & Z1 & Z2). unfold v, plist, velocity. cbn. rewrite Z0, Z1, Z2. unfold vzero. f_equal; ring.
    - unfold v, plist, velocity. cbn. unfold kdl_eps. lra. }
  assert (w = vzero /\ (n 3%nat = 0 /\ n 4%nat = 0 /\ n 5%nat = 0)%Z \/ (norm w < PI /\ kdl_eps <= sin (norm w) /\ kdl_eps <= norm w)) as HW.
  { destruct (grid (n 3%nat) (n 4%nat) (n 5%nat) _ G1) as [Z|H]; [left; split; auto|right].
    - destruct Z as (Z0 & Z1 & Z2). unfold w, rlist, velocity. cbn. rewrite Z0, Z1, Z2. unfold vzero. f_equal; ring.
    - change (1 / 100 <= norm w) in H. pose proof PI2_3_2 as P. unfold PI2 in P. split; [lra|]. split; [apply sin_floor; lra|unfold kdl_eps; lra]. }
  rewrite line_spec in TH.
  - apply k_some in TH. subst cs. exists css1. eexists. split; [reflexivity|]. unfold carried. cbv zeta. cbn [fp fM].
    split; [reflexivity|]. split; [reflexivity|]. fold v w.
    change (rlist [y0; y1; y2; y3; y4; y5]) with (V y3 y4 y5). intros GL.
    set (m := mm _ _) in *. unfold frameToVector. cbn [fM fp]. fold m. change (rlist _) with (V (vx (GetRot m)) (vy (GetRot m)) (vz (GetRot m))).
    replace (V (vx (GetRot m)) (vy (GetRot m)) (vz (GetRot m))) with (GetRot m) by (destruct (GetRot m); reflexivity).
    change (rot_of (GetRot m) = m). apply rot_of_GetRot; auto. unfold m. apply rot_mm; [apply Rot2_rot, normalize_unit|apply rot_of_rot].
  - exact (rot_of_rot (V y3 y4 y5)).
  - destruct HV as [[HV _]|HV]; auto.
  - destruct HW as [[HW _]|HW]; auto.
  - intros [Z1 Z2]. assert (norm v = 0) as N1 by (rewrite Z1; apply norm_of_zero). assert (norm w = 0) as N2 by (rewrite Z2; apply norm_of_zero).
    pose proof kdl_eps_pos. apply NZ. destruct HV as [(_ & V0 & V1 & V2)|HV]; [|lra]. destruct HW as [(_ & W0 & W1 & W2)|(_ & _ & HW)]; [|lra].
    intros i0 L. do 6 (destruct i0 as [|i0]; [assumption|]). lia.
  - lra.
  - apply Rmax_lub; lra.
Qed.
