From Coq Require Import Reals Lra Psatz List Bool String ZArith Lia.
From Verif Require Import Kdl KdlFacts KdlRot KdlRotFacts KinRep KdlSolver Vocab Ft FtSpec.
Import ListNotations.
Open Scope R_scope.
Local Notation S := Datatypes.S.
Local Notation length := List.length.

Lemma orientation_rot : forall x, rotation_matrix (orientation x).
Proof.
  intro x. unfold orientation, vectorToFrame.
  do 7 (destruct x; try exact rot_id). cbn [fM]. apply Rot2_rot, normalize_unit.
Qed.

Lemma mounted_rot : forall v m, mounted v m -> rotation_matrix m /\ sensor_rotation v = Some m.
Proof.
  intros v m H. destruct v; cbn in H; try contradiction.
  - subst. split; [apply rot_id|reflexivity].
  - do 4 (destruct l; try contradiction). subst. split; [|reflexivity].
    rewrite RotX_Rot2, RotY_Rot2, RotZ_Rot2.
    apply rot_mm; [apply Rot2_rot, unit_ez|apply rot_mm; apply Rot2_rot; [apply unit_ey|apply unit_ex]].
Qed.
Lemma rotation_mounted : forall v m, sensor_rotation v = Some m -> mounted v m.
Proof.
  intros v m H. destruct v; cbn in H; try discriminate.
  - congruence.
  - do 4 (destruct l; try discriminate). cbn. unfold RPY, deg2rad in H. congruence.
Qed.

Lemma read_senses : forall m w, rotation_matrix m -> readSensor m (Some (senses m w)) = Done w.
Proof.
  intros m [f t] H. unfold readSensor, senses, wrot. cbn -[mv].
  assert (E : forall a b, mv m (V (vx a) (vy a) (vz a)) = b -> mv m a = b) by (intros [] b; cbn; auto).
  do 2 f_equal.
  - transitivity (mv m (mv (mT m) f)); [destruct (mv (mT m) f); reflexivity|apply mv_mT_r; exact H].
  - transitivity (mv m (mv (mT m) t)); [destruct (mv (mT m) t); reflexivity|apply mv_mT_r; exact H].
Qed.

Lemma compensate_gravity : forall com weight x w,
  compensateTool com weight (Some x) w = Done (wsub w (gravity (orientation x) com weight)).
Proof.
  intros. unfold compensateTool, gravity, wrot, ref_point, wsub, orientation.
  cbn [w_force w_torque]. rewrite mv_zero. do 3 f_equal.
  generalize (mv (mT (fM (vectorToFrame x))) weight). intro f. apply vec_eq; cbn; ring.
Qed.

Lemma deadband_shrunk : forall f d g, 0 <= d -> exists r, deadband f d g = Some r /\ shrunk f d g r.
Proof.
  intros f d g Hd. unfold deadband. destruct (Rltb d (norm f)) eqn:E.
  - apply Rltb_true in E. destruct (Reqb (norm f) 0) eqn:Z.
    + apply Reqb_true in Z. lra.
    + apply Reqb_false in Z. eexists. split; [reflexivity|]. split; [lra|]. intros _.
      assert (Q : vscale g (vsub f (vscale d (vscale (/ norm f) f))) = vscale (g * (norm f - d) / norm f) f)
        by (apply vec_eq; cbn; field; exact Z).
      rewrite Q. split; [reflexivity|]. rewrite norm_scale. unfold Rdiv. rewrite !Rabs_mult.
      rewrite (Rabs_right (norm f - d)) by lra. rewrite Rabs_inv. rewrite (Rabs_right (norm f)) by lra.
      field. exact Z.
  - apply Rltb_false in E. eexists. split; [reflexivity|]. split; [reflexivity|lra].
Qed.

Lemma norm_vzero : norm vzero = 0.
Proof. unfold norm, dot. cbn. replace (_ + _ + _) with 0 by ring. apply sqrt_0. Qed.

Lemma shrunk_zero : forall d g r, 0 <= d -> shrunk vzero d g r -> r = vzero.
Proof.
  intros d g r Hd [H _]. apply H. rewrite norm_vzero. exact Hd.
Qed.

Lemma cauchy : forall a b, dot a b <= norm a * norm b.
Proof.
  intros a b. destruct (Rle_dec (dot a b) 0) as [N|N].
  - pose proof (Rmult_le_pos _ _ (norm_nonneg a) (norm_nonneg b)). lra.
  - pose proof (norm_sqr a) as A. pose proof (norm_sqr b) as B.
    pose proof (norm_nonneg a). pose proof (norm_nonneg b).
    pose proof (dot_self_nonneg (cross a b)) as C. rewrite lagrange in C.
    assert (0 <= norm a * norm b) by (apply Rmult_le_pos; lra).
    assert (dot a b * dot a b <= (norm a * norm b) * (norm a * norm b)).
    { replace ((norm a * norm b) * (norm a * norm b)) with ((norm a * norm a) * (norm b * norm b)) by ring. rewrite A, B. lra. }
    apply Rsqr_incr_0; unfold Rsqr; lra.
Qed.

Lemma norm_le_sq : forall a b, dot a a <= dot b b -> norm a <= norm b.
Proof. intros. unfold norm. apply sqrt_le_1_alt. exact H. Qed.

(* the soft threshold is not expansive *)
Lemma shrink_lipschitz_1 : forall A B c d, 0 <= d -> d < A -> d < B -> c <= A * B ->
  (A - d) * (A - d) + (B - d) * (B - d) - 2 * ((A - d) / A) * ((B - d) / B) * c <= A * A + B * B - 2 * c.
Proof.
  intros A B c d Hd HA HB Hc.
  assert (E : A * A + B * B - 2 * c - ((A - d) * (A - d) + (B - d) * (B - d) - 2 * ((A - d) / A) * ((B - d) / B) * c)
            = 2 * (A * B - (A - d) * (B - d)) * (1 - c / (A * B))) by (field; lra).
  assert (0 <= 1 - c / (A * B)).
  { assert (c / (A * B) <= 1); [|lra]. apply Rmult_le_reg_r with (A * B); [nra|]. unfold Rdiv. rewrite Rmult_assoc, Rinv_l; nra. }
  assert (0 <= A * B - (A - d) * (B - d)) by nra.
  assert (0 <= 2 * (A * B - (A - d) * (B - d)) * (1 - c / (A * B))) by (apply Rmult_le_pos; lra).
  lra.
Qed.

Lemma sub_sq : forall a b, dot (vsub a b) (vsub a b) = norm a * norm a + norm b * norm b - 2 * dot a b.
Proof. intros. rewrite !norm_sqr. unfold dot, vsub. cbn. ring. Qed.

Lemma shrunk_lipschitz : forall a b d g ra rb, 0 <= d ->
  shrunk a d g ra -> shrunk b d g rb -> norm (vsub ra rb) <= Rabs g * norm (vsub a b).
Proof.
  intros a b d g ra rb Hd [A0 A1] [B0 B1].
  assert (G : forall u, norm (vscale g u) = Rabs g * norm u) by (intro; apply norm_scale).
  assert (main : forall sa sb, ra = vscale g sa -> rb = vscale g sb ->
     dot (vsub sa sb) (vsub sa sb) <= dot (vsub a b) (vsub a b) -> norm (vsub ra rb) <= Rabs g * norm (vsub a b)).
  { intros sa sb -> -> L. replace (vsub (vscale g sa) (vscale g sb)) with (vscale g (vsub sa sb)) by (apply vec_eq; cbn; ring).
    rewrite G. apply Rmult_le_compat_l; [apply Rabs_pos|]. apply norm_le_sq, L. }
  pose proof (cauchy a b) as CS. pose proof (norm_nonneg a) as NA. pose proof (norm_nonneg b) as NB.
  destruct (Rle_dec (norm a) d) as [La|La]; destruct (Rle_dec (norm b) d) as [Lb|Lb].
  - apply (main vzero vzero); [rewrite (A0 La)|rewrite (B0 Lb)|]; try (apply vec_eq; cbn; ring).
    rewrite vsub_diag, dot_zero_l. apply dot_self_nonneg.
  - destruct (B1 ltac:(lra)) as [E _]. apply (main vzero (vscale ((norm b - d) / norm b) b)).
    + rewrite (A0 La). apply vec_eq; cbn; ring.
    + rewrite E, vscale_vscale. f_equal. field. lra.
    + rewrite !sub_sq. rewrite norm_vzero.
      rewrite dot_zero_l, norm_scale. rewrite Rabs_right.
      2:{ apply Rle_ge. apply Rmult_le_pos; [lra|]. left. apply Rinv_0_lt_compat. lra. }
      replace ((norm b - d) / norm b * norm b) with (norm b - d) by (field; lra). nra.
  - destruct (A1 ltac:(lra)) as [E _]. apply (main (vscale ((norm a - d) / norm a) a) vzero).
    + rewrite E, vscale_vscale. f_equal. field. lra.
    + rewrite (B0 Lb). apply vec_eq; cbn; ring.
    + rewrite !sub_sq. rewrite norm_vzero.
      rewrite dot_zero_r, norm_scale. rewrite Rabs_right.
      2:{ apply Rle_ge. apply Rmult_le_pos; [lra|]. left. apply Rinv_0_lt_compat. lra. }
      replace ((norm a - d) / norm a * norm a) with (norm a - d) by (field; lra). nra.
  - destruct (A1 ltac:(lra)) as [Ea _]. destruct (B1 ltac:(lra)) as [Eb _].
    apply (main (vscale ((norm a - d) / norm a) a) (vscale ((norm b - d) / norm b) b)).
    + rewrite Ea, vscale_vscale. f_equal. field. lra.
    + rewrite Eb, vscale_vscale. f_equal. field. lra.
    + rewrite !sub_sq, !norm_scale, dot_scale_l, dot_scale_r. 
      rewrite (Rabs_right ((norm a - d) / norm a)) by (apply Rle_ge; apply Rmult_le_pos; [lra|]; left; apply Rinv_0_lt_compat; lra).
      rewrite (Rabs_right ((norm b - d) / norm b)) by (apply Rle_ge; apply Rmult_le_pos; [lra|]; left; apply Rinv_0_lt_compat; lra).
      replace ((norm a - d) / norm a * norm a) with (norm a - d) by (field; lra).
      replace ((norm b - d) / norm b * norm b) with (norm b - d) by (field; lra).
      pose proof (shrink_lipschitz_1 (norm a) (norm b) (dot a b) d Hd ltac:(lra) ltac:(lra) CS). lra.
Qed.

(** * configure and run *)
Lemma wsub_gravity : forall b g c, wsub (wsub (wadd (wadd b g) c) g) b = c.
Proof. intros [[] []] [[] []] [[] []]. unfold wsub, wadd, vsub, vadd. cbn. f_equal; f_equal; ring. Qed.
Lemma wsub_offset : forall b g, wsub (wadd b g) g = b.
Proof. intros [[] []] [[] []]. unfold wsub, wadd, vsub, vadd. cbn. f_equal; f_equal; ring. Qed.

Lemma tool_given : forall o com weight, with_tool o com weight ->
  tool_parameters (o_tool_com o) (o_tool_weight o) = Some (Some (com, weight)).
Proof. intros o [] [] [A B]. rewrite A, B. reflexivity. Qed.

Lemma run_answers : forall c s i m bias com weight x contact,
  rotation_matrix m -> f_rot c = m -> f_tool c = Some (com, weight) -> f_imp c = false -> f_dry c = false ->
  0 <= forceDeadband (f_gains c) -> 0 <= torqueDeadband (f_gains c) ->
  f_offset s = bias -> feels m bias com weight i x contact ->
  exists k, ft_run c s i = Done ([k], s) /\ answers (f_twist c) (f_gains c) contact k.
Proof.
  intros c s i m bias com weight x contact Hm Hr Ht Hi Hd D1 D2 Ho [Hs Hx]. subst bias.
  unfold ft_run. rewrite Hr, Hs, (read_senses m) by exact Hm. rewrite Ht, Hx, compensate_gravity.
  rewrite wsub_gravity.
  destruct (deadband_shrunk (w_force contact) _ (linGain (f_gains c)) D1) as [f [F1 F2]].
  destruct (deadband_shrunk (w_torque contact) _ (rotGain (f_gains c)) D2) as [t [T1 T2]].
  cbv zeta. rewrite F1, T1, Hi, Hd. eexists. split.
  - do 2 f_equal. destruct s; reflexivity.
  - exists f, t. split; [|split; assumption]. reflexivity.
Qed.

Lemma configured : forall o e cs c s,
  ft_configure o e = (cs, Done (c, s)) ->
  f_gains c = o_gains o /\ f_dry c = o_dry o /\ f_imp c = o_impedance o /\ f_period c = o_period o /\
  (o_mode o = if f_twist c then "twist" else "wrench")%string /\ (f_twist c = true -> f_imp c = false) /\
  mounted (o_sensor_rpy o) (f_rot c) /\
  tool_parameters (o_tool_com o) (o_tool_weight o) = Some (f_tool c) /\
  wait_sensor (e_status e) 10 0 <> 10%nat /\ e_found e = true /\ e_start e = true /\
  (exists w, readSensor (f_rot c) (e_measure e) = Done w /\
     match f_tool c with
     | None => f_offset s = w
     | Some (com, weight) => exists x, e_stat_tool e = Some x /\ f_offset s = wsub w (gravity (orientation x) com weight)
     end) /\
  (f_imp c = true -> exists x, e_stat_init e = Some x /\ f_initial s = vectorToFrame x /\ f_previous s = vectorToFrame x) /\
  cs = (if f_dry c then [] else
         (match e_params e with Some true => [FtPreset (if f_twist c then VOCAB_CC_TWIST else VOCAB_CC_WRENCH)] | _ => [] end)
         ++ [FtFrame TCP_FRAME]).
Proof.
  intros o e cs c s H. unfold ft_configure in H.
  assert (M : exists tm, (if String.eqb (o_mode o) "twist" then Some true else if String.eqb (o_mode o) "wrench" then Some false else None) = Some tm
              /\ (o_mode o = if tm then "twist" else "wrench")%string).
  { destruct (String.eqb (o_mode o) "twist") eqn:E1; [exists true; split; [reflexivity|now apply String.eqb_eq]|].
    destruct (String.eqb (o_mode o) "wrench") eqn:E2; [exists false; split; [reflexivity|now apply String.eqb_eq]|].
    discriminate H. }
  destruct M as [tm [Em Hm]]. rewrite Em in H. clear Em.
  destruct (o_impedance o && tm) eqn:I; [discriminate|].
  destruct (sensor_rotation (o_sensor_rpy o)) as [rot|] eqn:Rt; [|discriminate].
  destruct (e_found e) eqn:Fd; [|discriminate]. cbn [negb] in H.
  destruct (Nat.eqb (wait_sensor (e_status e) 10 0) 10) eqn:W; [discriminate|].
  apply Nat.eqb_neq in W.
  destruct (readSensor rot (e_measure e)) as [w| |] eqn:Rd; try discriminate.
  destruct (tool_parameters (o_tool_com o) (o_tool_weight o)) as [tool|] eqn:T; [|discriminate].
  destruct (negb (o_dry o) || match tool with Some _ => true | None => false end || o_impedance o) eqn:U.
  - unfold configure_cartesian in H. destruct (e_device e) eqn:De; [|discriminate]. cbn [negb] in H.
    assert (P : forall k : list ft_cmd * bool, k = (if o_dry o then ([], true)
          else match e_params e with
               | None => ([], false)
               | Some preset =>
                   let p := if preset then [FtPreset (if tm then VOCAB_CC_TWIST else VOCAB_CC_WRENCH)] else [] in
                   if preset && negb (e_preset e) then (p, false)
                   else (p ++ [FtFrame TCP_FRAME], e_frame e)
               end) -> snd k = true -> fst k = (if o_dry o then [] else
         (match e_params e with Some true => [FtPreset (if tm then VOCAB_CC_TWIST else VOCAB_CC_WRENCH)] | _ => [] end)
         ++ [FtFrame TCP_FRAME])).
    { intros k -> K. destruct (o_dry o); [reflexivity|]. destruct (e_params e) as [[]|]; [|reflexivity|discriminate].
      cbv zeta in *. cbn [andb] in *. destruct (e_preset e); [reflexivity|discriminate]. }
    match type of P with forall k, k = ?t -> _ => destruct t as [cmds ok] eqn:K end.
    specialize (P _ eq_refl). cbn [fst snd] in P.
    destruct ok; [|discriminate]. specialize (P eq_refl). cbn [negb] in H.
    assert (O : exists off, match tool with Some (com, weight) => compensateTool com weight (e_stat_tool e) w | None => Done w end = Done off
       /\ match tool with
          | None => off = w
          | Some (com, weight) => exists x, e_stat_tool e = Some x /\ off = wsub w (gravity (orientation x) com weight) end).
    { destruct tool as [[com weight]|]; [|eauto]. destruct (e_stat_tool e) as [x|] eqn:X; [|discriminate].
      rewrite compensate_gravity. eauto. }
    destruct O as [off [O1 O2]]. rewrite O1 in H.
    destruct (o_impedance o) eqn:Im.
    + destruct (e_stat_init e) as [x|] eqn:X; [|discriminate]. destruct (e_start e) eqn:St; [|discriminate].
      assert (Q : cs = cmds /\ c = FtCfg tm (o_dry o) (o_gains o) true (o_period o) rot tool /\
        s = FtSt off (vectorToFrame x) (vectorToFrame x)) by (split; [congruence|]; split; congruence).
      destruct Q as [-> [-> ->]]. cbn [f_gains f_dry f_imp f_period f_twist f_rot f_tool f_offset f_initial f_previous].
      repeat (split; [first [reflexivity|assumption]|]).
      split; [intro; subst tm; discriminate|]. split; [apply rotation_mounted, Rt|]. repeat (split; [first [reflexivity|assumption]|]).
      split; [eauto|]. split; [eauto|]. exact P.
    + destruct (e_start e) eqn:St; [|discriminate].
      assert (Q : cs = cmds /\ c = FtCfg tm (o_dry o) (o_gains o) false (o_period o) rot tool /\
        s = FtSt off (vectorToFrame []) (vectorToFrame [])) by (split; [congruence|]; split; congruence).
      destruct Q as [-> [-> ->]]. cbn [f_gains f_dry f_imp f_period f_twist f_rot f_tool f_offset f_initial f_previous].
      repeat (split; [first [reflexivity|assumption]|]).
      split; [apply rotation_mounted, Rt|]. repeat (split; [first [reflexivity|assumption]|]).
      split; [eauto|]. split; [discriminate|]. exact P.
  - destruct (e_start e) eqn:St; [|discriminate].
    apply orb_false_iff in U. destruct U as [U1 U3]. apply orb_false_iff in U1. destruct U1 as [U1 U2].
    destruct (o_dry o) eqn:Dr; [|discriminate]. destruct tool; [discriminate|].
    assert (Q : cs = [] /\ c = FtCfg tm true (o_gains o) (o_impedance o) (o_period o) rot None /\
        s = FtSt w fid fid) by (split; [congruence|]; split; congruence).
    destruct Q as [-> [-> ->]]. cbn [f_gains f_dry f_imp f_period f_twist f_rot f_tool f_offset f_initial f_previous].
    repeat (split; [first [reflexivity|assumption]|]).
    split; [intro; assumption|]. split; [apply rotation_mounted, Rt|]. repeat (split; [first [reflexivity|assumption]|]).
    split; [eauto|]. split; [congruence|]. reflexivity.
Qed.

Lemma life_answers : forall c s m bias com weight is xs contacts,
  rotation_matrix m -> f_rot c = m -> f_tool c = Some (com, weight) -> f_imp c = false -> f_dry c = false ->
  0 <= forceDeadband (f_gains c) -> 0 <= torqueDeadband (f_gains c) ->
  f_offset s = bias ->
  Forall2 (fun i xc => feels m bias com weight i (fst xc) (snd xc)) is (combine xs contacts) -> length xs = length contacts ->
  exists ks, ft_life c s is = Some (ks ++ [FtStop]) /\ Forall2 (answers (f_twist c) (f_gains c)) contacts ks.
Proof.
  intros c s m bias com weight is. induction is as [|i is IH]; intros xs contacts Hm Hr Ht Hi Hd D1 D2 Ho HF HL.
  - inversion HF as [E|]. destruct xs; destruct contacts; try discriminate. exists []. cbn. rewrite Hd. split; [reflexivity|constructor].
  - destruct xs as [|x xs]; destruct contacts as [|k contacts]; try discriminate; inversion HF; subst.
    cbn [fst snd] in *.
    destruct (run_answers c s i (f_rot c) (f_offset s) com weight x k) as [r [R1 R2]]; auto.
    cbn [ft_life]. rewrite R1.
    destruct (IH xs contacts) as [ks [K1 K2]]; auto. rewrite K1.
    exists (r :: ks). split; [reflexivity|]. constructor; assumption.
Qed.

Lemma tool_life : forall o e cs c s m com weight bias x0 is xs contacts,
  ft_configure o e = (cs, Done (c, s)) -> with_tool o com weight -> o_impedance o = false -> o_dry o = false ->
  0 <= forceDeadband (o_gains o) -> 0 <= torqueDeadband (o_gains o) ->
  mounted (o_sensor_rpy o) m ->
  e_measure e = Some (senses m (wadd bias (gravity (orientation x0) com weight))) -> e_stat_tool e = Some x0 ->
  Forall2 (fun i xc => feels m bias com weight i (fst xc) (snd xc)) is (combine xs contacts) -> length xs = length contacts ->
  exists ks, ft_life c s is = Some (ks ++ [FtStop]) /\ Forall2 (answers (f_twist c) (o_gains o)) contacts ks.
Proof.
  intros o e cs c s m com weight bias x0 is xs contacts HC HT HI HD D1 D2 HM HE HX HF HL.
  destruct (configured _ _ _ _ _ HC) as (G & Dr & Im & _ & _ & _ & Mo & To & _ & _ & _ & (w & Rd & Of) & _).
  assert (E : f_rot c = m).
  { destruct (mounted_rot _ _ HM) as [_ A]. destruct (mounted_rot _ _ Mo) as [_ B]. congruence. }
  destruct (mounted_rot _ _ HM) as [Rm _].
  rewrite (tool_given _ _ _ HT) in To. assert (To' : f_tool c = Some (com, weight)) by congruence. clear To.
  rewrite To' in Of. destruct Of as [x [Ex Of]]. rewrite HX in Ex. assert (x = x0) by congruence. subst x.
  rewrite E, HE, read_senses in Rd by exact Rm. assert (w = wadd bias (gravity (orientation x0) com weight)) by congruence. subst w.
  rewrite wsub_offset in Of. rewrite <- G.
  eapply life_answers; eauto; try congruence.
Qed.

(** * The wait for the sensor *)
Lemma wait_10 : forall status left retry,
  wait_sensor status left retry = (left + retry)%nat <->
  (forall k, (retry <= k < left + retry)%nat -> status k = false) /\ status (left + retry)%nat = true.
Proof.
  intros status left. induction left as [|left IH]; intro retry; cbn [wait_sensor].
  - cbn [plus]. destruct (status retry) eqn:E.
    + split; [intros _; split; [intros; lia|reflexivity]|reflexivity].
    + split; [lia|intros [_ A]; congruence].
  - destruct (status retry) eqn:E.
    + split; [lia|]. intros [A _]. rewrite A in E by lia. discriminate.
    + specialize (IH (S retry)). replace (left + S retry)%nat with (S left + retry)%nat in IH by lia. rewrite IH.
      split.
      * intros [A B]. split; [|exact B]. intros k Hk. destruct (Nat.eq_dec k retry); [subst; exact E|apply A; lia].
      * intros [A B]. split; [|exact B]. intros k Hk. apply A. lia.
Qed.

Lemma fine_starts : forall o e, otherwise_fine o e -> wait_sensor (e_status e) 10 0 <> 10%nat -> starts (ft_configure o e).
Proof.
  intros o e (Mo & Im & (m & Mt) & Fd & (l & Ml & Ll) & To & De & Pa & Pr & Fr & St & Si & Sr) W.
  unfold ft_configure, starts.
  assert (M : exists tm, (if String.eqb (o_mode o) "twist" then Some true else if String.eqb (o_mode o) "wrench" then Some false else None) = Some tm
              /\ o_impedance o && tm = false).
  { destruct Mo as [Mo|Mo]; rewrite Mo; cbn; eexists; split; try reflexivity.
    - rewrite (Im Mo). reflexivity.
    - apply andb_false_r. }
  destruct M as [tm [-> ->]]. destruct (mounted_rot _ _ Mt) as [_ ->]. rewrite Fd. cbn [negb].
  apply Nat.eqb_neq in W. rewrite W, Ml.
  assert (Q : exists w, readSensor m (Some l) = Done w).
  { do 6 (destruct l as [|? l]; [cbn in Ll; lia|]). eexists. reflexivity. }
  destruct Q as [w ->].
  assert (T : exists tool, tool_parameters (o_tool_com o) (o_tool_weight o) = Some tool).
  { destruct To as [E|(com & weight & T)]; [rewrite E; eexists; reflexivity|]. rewrite (tool_given _ _ _ T). eauto. }
  destruct T as [tool ->].
  destruct (negb (o_dry o) || _ || _).
  - unfold configure_cartesian. rewrite De, Pr, Fr, Sr. cbn [negb].
    destruct (e_params e) as [p|]; [|congruence]. destruct (e_stat_tool e) as [x|]; [|congruence].
    destruct (e_stat_init e) as [y|]; [|congruence].
    rewrite andb_false_r. cbv zeta.
    destruct (o_dry o); destruct tool as [[]|]; destruct (o_impedance o); cbn; eauto.
  - rewrite Sr. cbn. eauto.
Qed.

Lemma starts_wait : forall o e, starts (ft_configure o e) -> wait_sensor (e_status e) 10 0 <> 10%nat.
Proof.
  intros o e [[c s] H]. destruct (ft_configure o e) as [cs r] eqn:E. cbn in H. subst r.
  apply (configured _ _ _ _ _ E).
Qed.

Lemma wait_characterised : forall o e, otherwise_fine o e ->
  (starts (ft_configure o e) <->
   (exists k, (k < 10)%nat /\ e_status e k = true) \/ (forall k, (k <= 10)%nat -> e_status e k = false)).
Proof.
  intros o e HF.
  assert (A : wait_sensor (e_status e) 10 0 <> 10%nat <->
     (exists k, (k < 10)%nat /\ e_status e k = true) \/ (forall k, (k <= 10)%nat -> e_status e k = false)).
  { rewrite (wait_10 (e_status e) 10 0). cbn [plus].
    assert (D : (exists k, (k < 10)%nat /\ e_status e k = true) \/ (forall k, (k < 10)%nat -> e_status e k = false)).
    { generalize 10%nat as n. intro n. induction n as [|n [(k & K1 & K2)|N]]; [right; intros; lia|left; exists k; split; [lia|exact K2]|].
      destruct (e_status e n) eqn:E; [left; exists n; split; [lia|exact E]|].
      right. intros k Hk. destruct (Nat.eq_dec k n); [subst; exact E|apply N; lia]. }
    split.
    - intro N. destruct D as [D|D]; [left; exact D|]. right. intros k Hk.
      destruct (Nat.eq_dec k 10); [subst|apply D; lia].
      destruct (e_status e 10) eqn:E; [|reflexivity]. exfalso. apply N. split; [|reflexivity]. intros k Hk'. apply D. lia.
    - intros [(k & K1 & K2)|N] [P Q]; [rewrite P in K2 by lia; discriminate|rewrite N in Q by lia; discriminate]. }
  rewrite <- A. split; [apply starts_wait|apply fine_starts, HF].
Qed.

(** * What is sent *)
Lemma run_kind : forall c s i cs s', ft_run c s i = Done (cs, s') ->
  (f_dry c = true -> cs = []) /\ (f_dry c = false -> exists k, cs = [k] /\ of_kind (f_twist c) k = true).
Proof.
  intros c s i cs s' H. unfold ft_run in H.
  destruct (readSensor _ _); try discriminate.
  destruct (match f_tool c with Some _ => _ | None => _ end); try discriminate. cbv zeta in H.
  destruct (deadband _ _ _); try discriminate. destruct (deadband _ _ _); try discriminate.
  destruct (if f_imp c then _ else _) as [[w p]| |]; try discriminate.
  assert (E : cs = if f_dry c then [] else [if f_twist c then FtTwist (wrenchToVector w) else FtWrench (wrenchToVector w)]) by congruence.
  split; intro D; rewrite D in E; [exact E|]. eexists. split; [exact E|]. destruct (f_twist c); reflexivity.
Qed.

Lemma life_kind : forall c is s cs, ft_life c s is = Some cs ->
  if f_dry c then cs = []
  else exists ks, (cs = ks ++ [FtStop] \/ cs = ks) /\ forallb (of_kind (f_twist c)) ks = true.
Proof.
  intros c is. induction is as [|i is IH]; intros s cs H.
  - cbn in H. destruct (f_dry c); [congruence|]. exists []. split; [left; cbn; congruence|reflexivity].
  - cbn in H. destruct (ft_run c s i) as [[c1 s1]| |] eqn:R; try discriminate.
    + destruct (ft_life c s1 is) as [c2|] eqn:L; [|discriminate].
      specialize (IH _ _ L). destruct (run_kind _ _ _ _ _ R) as [D1 D2].
      assert (cs = c1 ++ c2) by congruence. subst cs.
      destruct (f_dry c); [rewrite D1, IH by reflexivity; reflexivity|].
      destruct (D2 eq_refl) as [k [-> K]]. destruct IH as [ks [[->| ->] A]].
      * exists (k :: ks). split; [left; reflexivity|]. cbn. rewrite K. exact A.
      * exists (k :: ks). split; [right; reflexivity|]. cbn. rewrite K. exact A.
    + assert (cs = []) by congruence. subst. destruct (f_dry c); [reflexivity|]. exists []. split; [right; reflexivity|reflexivity].
Qed.

(** * Impedance *)
Lemma impedance_run : forall c s i x,
  f_imp c = true -> f_dry c = false -> f_twist c = false -> f_tool c = None ->
  i_measure i = Some (senses (f_rot c) (f_offset s)) -> rotation_matrix (f_rot c) ->
  0 <= forceDeadband (f_gains c) -> 0 <= torqueDeadband (f_gains c) ->
  i_stat_imp i = Some x ->
  exists k s', ft_run c s i = Done ([k], s') /\
    base_force x k = mv (orientation x) (vneg (vadd (vscale (linStiffness (f_gains c)) (vsub (position x) (fp (f_initial s))))
                                   (vscale (linDamping (f_gains c)) (vscale (/ f_period c) (vsub (position x) (fp (f_previous s))))))).
Proof.
  intros c s i x Hi Hd Ht Hn Hm Rm D1 D2 Hx. unfold ft_run.
  rewrite Hm, read_senses by exact Rm. rewrite Hn. cbv zeta.
  replace (wsub (f_offset s) (f_offset s)) with (Wr vzero vzero).
  2:{ destruct (f_offset s) as [[] []]. unfold wsub, vsub, vzero. cbn. f_equal; f_equal; ring. }
  cbn [w_force w_torque].
  destruct (deadband_shrunk vzero _ (linGain (f_gains c)) D1) as [f [F1 F2]].
  destruct (deadband_shrunk vzero _ (rotGain (f_gains c)) D2) as [t [T1 T2]].
  apply shrunk_zero in F2; [|exact D1]. apply shrunk_zero in T2; [|exact D2]. subst f t.
  rewrite F1, T1, Hi, Hd, Ht, Hx. unfold applyImpedance. eexists. eexists. split; [reflexivity|].
  unfold base_force, wrenchToVector, position, frame_diff_dt, frame_diff. cbn [w_force w_torque t_vel t_rot]. f_equal.
  generalize (vsub (fp (vectorToFrame x)) (fp (f_initial s))). generalize (vsub (fp (vectorToFrame x)) (fp (f_previous s))).
  intros u v. apply vec_eq; cbn; ring.
Qed.

Lemma run_plain : forall c s i a b d e f g l,
  f_tool c = None -> f_imp c = false -> f_dry c = false ->
  0 <= forceDeadband (f_gains c) -> 0 <= torqueDeadband (f_gains c) ->
  i_measure i = Some (a :: b :: d :: e :: f :: g :: l) ->
  exists k, ft_run c s i = Done ([k], s) /\
    answers (f_twist c) (f_gains c) (Wr (vsub (mv (f_rot c) (V a b d)) (w_force (f_offset s))) (vsub (mv (f_rot c) (V e f g)) (w_torque (f_offset s)))) k.
Proof.
  intros c s i a b d e f g l Ht Hi Hd D1 D2 Hm. unfold ft_run. rewrite Hm. cbn [readSensor]. rewrite Ht. unfold wsub, wrot. cbn [w_force w_torque].
  match goal with |- context [deadband ?u (forceDeadband _) _] => destruct (deadband_shrunk u _ (linGain (f_gains c)) D1) as [fo [F1 F2]] end.
  match goal with |- context [deadband ?u (torqueDeadband _) _] => destruct (deadband_shrunk u _ (rotGain (f_gains c)) D2) as [to [T1 T2]] end.
  rewrite F1, T1, Hi, Hd. eexists. split.
  - do 2 f_equal. destruct s; reflexivity.
  - exists fo, to. split; [reflexivity|]. split; assumption.
Qed.

Lemma answers_zero : forall tm g k, 0 <= forceDeadband g -> 0 <= torqueDeadband g ->
  answers tm g (Wr vzero vzero) k -> k = sent tm vzero vzero.
Proof.
  intros tm g k D1 D2 (f & t & E & F1 & F2). cbn in F1, F2. apply shrunk_zero in F1; [|exact D1]. apply shrunk_zero in F2; [|exact D2].
  subst. reflexivity.
Qed.
Lemma unloaded_zero : forall tm g contacts ks, 0 <= forceDeadband g -> 0 <= torqueDeadband g ->
  Forall2 (answers tm g) contacts ks -> Forall (fun w => w = Wr vzero vzero) contacts -> Forall (fun k => k = sent tm vzero vzero) ks.
Proof.
  intros tm g contacts ks D1 D2 H. induction H; intro A; constructor; inversion A; subst.
  - eapply answers_zero; eassumption.
  - auto.
Qed.

Lemma F2_length : forall A B (P : A -> B -> Prop) l m, Forall2 P l m -> length l = length m.
Proof. intros A B P l m H. induction H; cbn; congruence. Qed.

Lemma unloaded_life : forall o e cs c s m com weight bias x0 is xs,
  ft_configure o e = (cs, Done (c, s)) -> with_tool o com weight -> o_impedance o = false -> o_dry o = false ->
  0 <= forceDeadband (o_gains o) -> 0 <= torqueDeadband (o_gains o) ->
  mounted (o_sensor_rpy o) m ->
  e_measure e = Some (senses m (wadd bias (gravity (orientation x0) com weight))) -> e_stat_tool e = Some x0 ->
  Forall2 (fun i x => i_measure i = Some (senses m (wadd bias (gravity (orientation x) com weight))) /\ i_stat_tool i = Some x) is xs ->
  exists ks, ft_life c s is = Some (ks ++ [FtStop]) /\ length ks = length is /\ Forall (fun k => k = sent (f_twist c) vzero vzero) ks.
Proof.
  intros o e cs c s m com weight bias x0 is xs HC HT HI HD D1 D2 HM HE HX HF.
  destruct (tool_life o e cs c s m com weight bias x0 is xs (repeat (Wr vzero vzero) (length xs))) as [ks [K1 K2]]; auto.
  - clear -HF. induction HF; cbn; constructor; [|exact IHHF]. cbn [fst snd]. destruct H as [A B]. split; [|exact B].
    rewrite A. do 2 f_equal. generalize (wadd bias (gravity (orientation y) com weight)). intros [[] []]. unfold wadd, vadd, vzero. cbn. f_equal; f_equal; ring.
  - now rewrite repeat_length.
  - exists ks. split; [exact K1|]. split.
    + apply F2_length in K2. rewrite repeat_length in K2. apply F2_length in HF. congruence.
    + eapply unloaded_zero; [exact D1|exact D2|exact K2|]. apply Forall_forall. intros w Hw. apply repeat_spec in Hw. exact Hw.
Qed.

Lemma continuous_run : forall c s i1 i2 m bias com weight x1 x2 k1 k2,
  rotation_matrix m -> f_rot c = m -> f_tool c = Some (com, weight) -> f_imp c = false -> f_dry c = false ->
  0 <= forceDeadband (f_gains c) -> 0 <= torqueDeadband (f_gains c) -> f_offset s = bias ->
  feels m bias com weight i1 x1 k1 -> feels m bias com weight i2 x2 k2 ->
  exists f1 t1 f2 t2,
    ft_run c s i1 = Done ([sent (f_twist c) f1 t1], s) /\ ft_run c s i2 = Done ([sent (f_twist c) f2 t2], s) /\
    norm (vsub f1 f2) <= Rabs (linGain (f_gains c)) * norm (vsub (w_force k1) (w_force k2)) /\
    norm (vsub t1 t2) <= Rabs (rotGain (f_gains c)) * norm (vsub (w_torque k1) (w_torque k2)).
Proof.
  intros c s i1 i2 m bias com weight x1 x2 k1 k2 Rm Hr Ht Hi Hd D1 D2 Ho F1 F2.
  destruct (run_answers _ _ _ _ _ _ _ _ _ Rm Hr Ht Hi Hd D1 D2 Ho F1) as [c1 [R1 (f1 & t1 & E1 & A1 & B1)]].
  destruct (run_answers _ _ _ _ _ _ _ _ _ Rm Hr Ht Hi Hd D1 D2 Ho F2) as [c2 [R2 (f2 & t2 & E2 & A2 & B2)]].
  subst. exists f1, t1, f2, t2. split; [exact R1|]. split; [exact R2|]. split; [exact (shrunk_lipschitz _ _ _ _ _ _ D1 A1 A2)|exact (shrunk_lipschitz _ _ _ _ _ _ D2 B1 B2)].
Qed.

(** * Ends *)
Lemma run_done : forall c s i,
  0 <= forceDeadband (f_gains c) -> 0 <= torqueDeadband (f_gains c) ->
  (exists l, i_measure i = Some l /\ (6 <= length l)%nat) -> i_stat_tool i <> None -> i_stat_imp i <> None ->
  exists cs s', ft_run c s i = Done (cs, s').
Proof.
  intros c s i D1 D2 (l & Hl & Ll) Ht Hi. unfold ft_run. rewrite Hl.
  do 6 (destruct l as [|? l]; [cbn in Ll; lia|]). cbn [readSensor].
  destruct (i_stat_tool i) as [x|]; [|congruence]. destruct (i_stat_imp i) as [y|]; [|congruence].
  assert (G : forall w, exists w', match f_tool c with Some (com, weight) => compensateTool com weight (Some x) w | None => Done w end = Done w').
  { intro w. destruct (f_tool c) as [[]|]; eexists; reflexivity. }
  match goal with |- context [match f_tool c with Some _ => _ | None => Done ?w end] => destruct (G w) as [w' ->] end.
  cbv zeta.
  destruct (deadband_shrunk (w_force (wsub w' (f_offset s))) _ (linGain (f_gains c)) D1) as [fo [-> _]].
  destruct (deadband_shrunk (w_torque (wsub w' (f_offset s))) _ (rotGain (f_gains c)) D2) as [to [-> _]].
  destruct (f_imp c); cbn; eexists; eexists; reflexivity.
Qed.
Lemma life_interrupted : forall c is s,
  f_dry c = false -> 0 <= forceDeadband (f_gains c) -> 0 <= torqueDeadband (f_gains c) ->
  Forall (fun i => (exists l, i_measure i = Some l /\ (6 <= length l)%nat) /\ i_stat_tool i <> None /\ i_stat_imp i <> None) is ->
  exists ks, ft_life c s is = Some (ks ++ [FtStop]) /\ length ks = length is.
Proof.
  intros c is. induction is as [|i is IH]; intros s Hd D1 D2 H.
  - exists []. cbn. rewrite Hd. split; reflexivity.
  - inversion H as [|? ? [A [B C]] H']; subst. destruct (run_done c s i D1 D2 A B C) as (cs & s' & R).
    destruct (run_kind _ _ _ _ _ R) as [_ K]. destruct (K Hd) as [k [-> _]].
    destruct (IH s' Hd D1 D2 H') as [ks [L1 L2]]. cbn [ft_life]. rewrite R, L1.
    exists (k :: ks). split; [reflexivity|]. cbn. congruence.
Qed.

Lemma configure_no_motion : forall o e, forallb (fun k => negb (is_motion k)) (fst (ft_configure o e)) = true.
Proof.
  intros o e. unfold ft_configure.
  destruct (if String.eqb (o_mode o) "twist" then _ else _) as [tm|]; [|reflexivity].
  destruct (_ && _); [reflexivity|]. destruct (sensor_rotation _); [|reflexivity]. destruct (negb _); [reflexivity|].
  destruct (Nat.eqb _ _); [reflexivity|]. destruct (readSensor _ _) as [w| |]; try reflexivity.
  destruct (tool_parameters _ _) as [tool|]; [|reflexivity].
  assert (H : forallb (fun k => negb (is_motion k)) (fst (configure_cartesian tm (o_dry o) (o_impedance o) tool e w)) = true).
  { unfold configure_cartesian. destruct (negb (e_device e)); [reflexivity|].
    destruct (o_dry o); [|destruct (e_params e) as [[]|]; [destruct (e_preset e); [destruct (e_frame e)|]|destruct (e_frame e)|]]; cbn [negb andb app];
    try reflexivity;
    (destruct (match tool with Some _ => _ | None => _ end); try reflexivity; destruct (o_impedance o); [destruct (e_stat_init e)|]; reflexivity). }
  destruct (negb (o_dry o) || _ || _).
  - destruct (configure_cartesian _ _ _ _ _ _) as [cmds r]. cbn [fst] in H. destruct r; [destruct (e_start e)|..]; exact H.
  - destruct (e_start e); reflexivity.
Qed.

Lemma mode_life : forall o e cs c s is ks,
  ft_configure o e = (cs, Done (c, s)) -> ft_life c s is = Some ks ->
  (o_dry o = true -> cs = [] /\ ks = []) /\
  (o_dry o = false ->
    (exists p, cs = p ++ [FtFrame TCP_FRAME] /\
       (e_params e = Some true -> p = [FtPreset (if String.eqb (o_mode o) "twist" then VOCAB_CC_TWIST else VOCAB_CC_WRENCH)]) /\
       (e_params e <> Some true -> p = [])) /\
    exists ms, (ks = ms \/ ks = ms ++ [FtStop]) /\ forallb (of_kind (String.eqb (o_mode o) "twist")) ms = true).
Proof.
  intros o e cs c s is ks HC HL.
  destruct (configured _ _ _ _ _ HC) as (_ & Dr & _ & _ & Mo & _ & _ & _ & _ & _ & _ & _ & _ & Cs).
  pose proof (life_kind _ _ _ _ HL) as K. rewrite Dr in K, Cs.
  assert (E : String.eqb (o_mode o) "twist" = f_twist c) by (rewrite Mo; destruct (f_twist c); reflexivity).
  rewrite E. split; intro D; rewrite D in K, Cs.
  - split; assumption.
  - split.
    + eexists. split; [exact Cs|]. split; intro P; [rewrite P; reflexivity|]. destruct (e_params e) as [[]|]; congruence.
    + destruct K as [ms [K1 K2]]. exists ms. split; [tauto|exact K2].
Qed.

(** * Witnesses *)
Definition wgains : ft_gains := Gains 1 1 1 1 0 0 1 1.
Definition wopt (mode : string) (imp : bool) : ft_options := FtOpt mode 1 false wgains imp Absent Absent Absent.
Definition wenv (status : nat -> bool) (x : list R) : ft_env := FtEnv true status (Some [0;0;0;0;0;0]) true (Some true) true true (Some x) (Some x) true.

Lemma wfine : forall mode imp status x, (mode = "twist" /\ imp = false \/ mode = "wrench")%string -> otherwise_fine (wopt mode imp) (wenv status x).
Proof.
  intros mode imp status x H. unfold otherwise_fine, wopt, wenv. cbn.
  split; [tauto|]. split; [intro; destruct H as [[]|]; [assumption|subst; discriminate]|]. split; [exists mid; reflexivity|].
  split; [reflexivity|]. split; [eexists; split; [reflexivity|cbn; lia]|]. split; [left; reflexivity|].
  repeat split; try discriminate; reflexivity.
Qed.

Lemma wait_witness :
  (exists o e, otherwise_fine o e /\ (forall k, e_status e k = false) /\ starts (ft_configure o e)) /\
  (exists o e, otherwise_fine o e /\ e_status e 10 = true /\ ~ starts (ft_configure o e)).
Proof.
  split.
  - exists (wopt "twist" false), (wenv (fun _ => false) []). assert (F : otherwise_fine (wopt "twist" false) (wenv (fun _ => false) [])) by (apply wfine; tauto).
    split; [exact F|]. split; [reflexivity|]. apply wait_characterised; [exact F|]. right. reflexivity.
  - exists (wopt "twist" false), (wenv (fun k => Nat.eqb k 10) []).
    assert (F : otherwise_fine (wopt "twist" false) (wenv (fun k => Nat.eqb k 10) [])) by (apply wfine; tauto).
    split; [exact F|]. split; [reflexivity|]. intro N. apply wait_characterised in N; [|exact F].
    cbn [e_status wenv] in N. destruct N as [(k & K1 & K2)|N]; [apply Nat.eqb_eq in K2; lia|]. specialize (N 10%nat ltac:(lia)). discriminate.
Qed.

Lemma half_turn : Rot (V 0 0 PI) (norm (V 0 0 PI)) = RotZ PI.
Proof.
  pose proof PI_RGT_0 as P. pose proof kdl_eps_pos as Q.
  assert (N : norm (V 0 0 PI) = PI).
  { unfold norm, dot. cbn. replace (0 * 0 + 0 * 0 + PI * PI) with (PI * PI) by ring. apply sqrt_square. lra. }
  rewrite N. unfold Rot.
  replace (V 0 0 PI) with (vscale PI (V 0 0 1)) by (apply vec_eq; cbn; ring).
  rewrite normalize_scaled; [symmetry; apply RotZ_Rot2|apply unit_ez|].
  pose proof PI2_3_2 as L. unfold PI2 in L. unfold kdl_eps. lra.
Qed.

Lemma impedance_witness : exists o e cs c s i x k s',
  ft_configure o e = (cs, Done (c, s)) /\ ft_run c s i = Done ([k], s') /\
  i_measure i = e_measure e /\ i_stat_imp i = Some x /\ 0 < linStiffness (o_gains o) /\ linDamping (o_gains o) = 0 /\
  0 < dot (base_force x k) (vsub (position x) (fp (f_initial s))).
Proof.
  pose (o := wopt "wrench" true). pose (e := wenv (fun _ => true) [0;0;0;0;0;PI]).
  assert (F : otherwise_fine o e) by (apply wfine; tauto).
  assert (St : starts (ft_configure o e)) by (apply wait_characterised; [exact F|]; left; exists 0%nat; split; [lia|reflexivity]).
  destruct St as [[c s] E]. destruct (ft_configure o e) as [cs r] eqn:C. cbn in E. subst r.
  destruct (configured _ _ _ _ _ C) as (G & Dr & Im & Pe & Mo & _ & Mt & To & _ & _ & _ & (w & Rd & Of) & Ip & _).
  assert (Tw : f_twist c = false) by (destruct (f_twist c); [discriminate Mo|reflexivity]).
  assert (Rot : f_rot c = mid) by exact Mt.
  cbn in To. assert (To' : f_tool c = None) by congruence. rewrite To' in Of. rewrite Rot in Rd. cbn in Rd.
  assert (Of' : f_offset s = Wr vzero vzero).
  { rewrite Of. assert (Hw : w = wrot mid (Wr (V 0 0 0) (V 0 0 0))) by congruence. rewrite Hw. unfold wrot. cbn [w_force w_torque]. f_equal; apply vec_eq; cbn; ring. }
  destruct Ip as [x0 [X0 [X1 X2]]]; [rewrite Im; reflexivity|]. cbn in X0. assert (x0 = [0;0;0;0;0;PI]) by congruence. subst x0.
  pose (x := [1;0;0;0;0;PI]). pose (i := FtIn (Some [0;0;0;0;0;0]) (Some x) (Some x)).
  destruct (impedance_run c s i x) as (k & s' & R & B).
  - exact Im.
  - exact Dr.
  - exact Tw.
  - exact To'.
  - rewrite Rot, Of'. unfold i, senses. cbn. repeat (f_equal; try ring).
  - rewrite Rot. apply rot_id.
  - rewrite G. cbn. lra.
  - rewrite G. cbn. lra.
  - reflexivity.
  - exists o, e, cs, c, s, i, x, k, s'. repeat (split; [first [exact C|exact R|reflexivity|cbn; lra]|]).
    rewrite B, G, X1, X2. unfold orientation, position. cbn [linStiffness linDamping o_gains o wopt wgains].
    cbn [x vectorToFrame fM fp]. rewrite half_turn. unfold RotZ. rewrite sin_PI, cos_PI. cbn. unfold dot, mv, vneg, vadd, vscale, vsub. cbn. match goal with |- 0 < ?t => replace t with 1 by ring end. lra.
Qed.

Lemma impedance_aligned : forall c s i x,
  f_imp c = true -> f_dry c = false -> f_twist c = false -> f_tool c = None ->
  i_measure i = Some (senses (f_rot c) (f_offset s)) -> rotation_matrix (f_rot c) ->
  0 <= forceDeadband (f_gains c) -> 0 <= torqueDeadband (f_gains c) ->
  i_stat_imp i = Some x -> orientation x = mid ->
  exists k s', ft_run c s i = Done ([k], s') /\ f_previous s' = vectorToFrame x /\
    base_force x k = vneg (vadd (vscale (linStiffness (f_gains c)) (vsub (position x) (fp (f_initial s))))
                                (vscale (linDamping (f_gains c)) (vscale (/ f_period c) (vsub (position x) (fp (f_previous s)))))).
Proof.
  intros c s i x Hi Hd Ht Hn Hm Rm D1 D2 Hx Ho. destruct (impedance_run c s i x) as (k & s' & R & B); auto.
  exists k, s'. split; [exact R|]. split; [|rewrite B, Ho, mv_id; reflexivity].
  clear B. unfold ft_run in R. destruct (readSensor _ _); try discriminate. rewrite Hn in R. cbv zeta in R.
  destruct (deadband _ _ _); try discriminate. destruct (deadband _ _ _); try discriminate. rewrite Hi, Hx in R. cbn [applyImpedance] in R.
  assert (s' = FtSt (f_offset s) (f_initial s) (vectorToFrame x)) by congruence. subst. reflexivity.
Qed.

Lemma failing_witness : exists o e cs c s i j v,
  ft_configure o e = (cs, Done (c, s)) /\ i_measure j = None /\ ft_life c s [i; j] = Some [FtTwist v] /\ Exists (fun x => x <> 0) v.
Proof.
  pose (o := wopt "twist" false). pose (e := wenv (fun _ => true) []).
  assert (F : otherwise_fine o e) by (apply wfine; tauto).
  assert (St : starts (ft_configure o e)) by (apply wait_characterised; [exact F|]; left; exists 0%nat; split; [lia|reflexivity]).
  destruct St as [[c s] E]. destruct (ft_configure o e) as [cs r] eqn:C. cbn in E. subst r.
  destruct (configured _ _ _ _ _ C) as (G & Dr & Im & Pe & Mo & _ & Mt & To & _ & _ & _ & (w & Rd & Of) & Ip & _).
  assert (Tw : f_twist c = true) by (destruct (f_twist c); [reflexivity|discriminate Mo]).
  assert (Rot : f_rot c = mid) by exact Mt.
  cbn in To. assert (To' : f_tool c = None) by congruence. rewrite To' in Of. rewrite Rot in Rd. cbn in Rd.
  assert (Of' : f_offset s = Wr vzero vzero).
  { rewrite Of. assert (Hw : w = wrot mid (Wr (V 0 0 0) (V 0 0 0))) by congruence. rewrite Hw. unfold wrot. cbn [w_force w_torque]. f_equal; apply vec_eq; cbn; ring. }
  destruct (run_plain c s (FtIn (Some [3;0;0;0;0;0]) None None) 3 0 0 0 0 0 []) as (k & R & (f & t & K & A1 & A2)).
  - exact To'.
  - exact Im.
  - exact Dr.
  - rewrite G. cbn. lra.
  - rewrite G. cbn. lra.
  - reflexivity.
  - rewrite Tw in K. unfold sent in K.
    exists o, e, cs, c, s, (FtIn (Some [3;0;0;0;0;0]) None None), (FtIn None None None). eexists. split; [exact C|]. split; [reflexivity|].
    cbn [ft_life]. rewrite R. cbn [ft_run i_measure readSensor]. rewrite K. split; [reflexivity|].
    left. destruct A1 as [_ A1]. cbn [w_force] in A1. rewrite Rot, Of', mv_id in A1.
    assert (N : norm (vsub (V 3 0 0) (w_force (Wr vzero vzero))) = 3).
    { unfold norm, dot. cbn. replace (_ + _ + _) with (3 * 3) by ring. apply sqrt_square. lra. }
    rewrite G in A1. cbn [o_gains o wopt wgains forceDeadband linGain] in A1. destruct A1 as [-> _]; [lra|]. rewrite N. cbn. lra.
Qed.
