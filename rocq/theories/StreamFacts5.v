From Coq Require Import Reals Lra Psatz List Bool String ZArith Lia.
From Verif Require Import Kdl KdlFacts KdlRot KdlRotFacts KinRep KdlSolver Vocab Ft Stream StreamSpec StreamFacts StreamFacts2 StreamFacts3.
Import ListNotations.
Open Scope R_scope.
Local Notation S := Datatypes.S.
Local Notation length := List.length.

(** * The Leap Motion sensor *)
Definition leap_inv (pose : bool) (names : option (list string)) (e : mat) (x0 first : list R)
  (scaling : R) (prox : bool) (high low : Z) (nolow : bool) (c : sdc) : Prop :=
  c_scaling c = scaling /\ c_prox c = prox /\ c_high c = high /\ c_low c = low /\ c_nolow c = nolow /\ c_cent c = false /\
  acquired first /\
  exists d, c_dev c = DLeap d /\ lp_pose d = pose /\ lp_fixed d = configureFixedAxes names /\ lp_ee_leap d = F e vzero /\
    lp_base_leap d = fmul (vectorToFrame x0) (F e vzero) /\
    lp_offset d = [nth 0 first 0 * / 1000; nth 1 first 0 * / 1000; nth 2 first 0 * / 1000; nth 3 first 0; nth 4 first 0; nth 5 first 0] /\
    (lp_has d = false -> lp_act d = VOCAB_CC_ACTUATOR_NONE).

Lemma leap_acquired : forall d r, acquired r -> exists h g p,
  leap_acquire d r = Some (Leap (lp_pose d) (lp_fixed d) [nth 0 r 0 * / 1000; nth 1 r 0 * / 1000; nth 2 r 0 * / 1000; nth 3 r 0; nth 4 r 0; nth 5 r 0]
     (lp_ee_leap d) (lp_base_leap d) (lp_offset d) (lp_prev d) (lp_time d) h g p (lp_act d)) /\ (h = false -> lp_has d = false) /\
  (length r = 6%nat -> h = lp_has d) /\ (length r = 8%nat -> h = true /\ g = Reqb (nth 6 r 0) 1 /\ p = Reqb (nth 7 r 0) 1).
Proof.
  intros d r [H|H]; unfold leap_acquire; rewrite H; cbn [Nat.eqb orb]; eexists; eexists; eexists; (split; [reflexivity|]); auto.
  - split; [auto|]. split; [reflexivity|discriminate].
  - split; [discriminate|]. split; [discriminate|auto].
Qed.
Lemma leap_refused : forall d r, ~ acquired r -> leap_acquire d r = None.
Proof.
  intros d r H. unfold leap_acquire, acquired in *.
  destruct (Nat.eqb_spec (length r) 6); destruct (Nat.eqb_spec (length r) 8); try reflexivity; tauto.
Qed.

Lemma leap_start : forall pose names e x0 first scaling prox high low nolow k c,
  leap_controller pose names e x0 first scaling prox high low nolow k c -> leap_inv pose names e x0 first scaling prox high low nolow c.
Proof.
  intros pose names e x0 first scaling prox high low nolow k c (rpy & n & cs & d & I & NS & L & RE & EE & ->).
  unfold leap_initialize in I. cbv zeta in I. destruct (n_preset n && _)%bool; [discriminate|]. destruct (negb _); [discriminate|].
  rewrite NS in I. destruct (acquired_dec first) as [Ha|Ha]; [|rewrite leap_refused in I by exact Ha; discriminate].
  match type of I with context [leap_acquire ?d0 first] => destruct (leap_acquired d0 first Ha) as (h & g & p & E & _ & _) end.
  rewrite E in I. apply pair_inj in I. destruct I as [_ I]. apply some_inj in I. subst d. cbn.
  unfold leap_inv, configured_sdc. cbn. repeat (split; [reflexivity|]). split; [exact Ha|].
  eexists. split; [reflexivity|]. cbn. repeat (split; [reflexivity|]).
  assert (EF : match rpy with Some m => F m vzero | None => fid end = F e vzero) by (destruct rpy; subst e; reflexivity).
  rewrite EF. repeat (split; [reflexivity|]). reflexivity.
Qed.

(* the pose computed for a reading *)
Definition lp_target (names : option (list string)) (e : mat) (x0 : list R) (k : R) (first r : list R) : list R :=
  let fixed := configureFixedAxes names in
  let get i (x : R) := if nth i fixed false then 0 else x in
  let rot := if negb (nth 3 fixed false) && negb (nth 4 fixed false) && negb (nth 5 fixed false)
             then RPY (get 3%nat (nth 3 r 0 - nth 3 first 0)) (get 4%nat (nth 4 r 0 - nth 4 first 0)) (get 5%nat (nth 5 r 0 - nth 5 first 0)) else mid in
  let p i := get i ((nth i r 0 * / 1000 - nth i first 0 * / 1000) / k) in
  frameToVector (fmul (fmul (fmul (vectorToFrame x0) (F e vzero)) (F rot (V (p 0%nat) (p 1%nat) (p 2%nat)))) (finv (F e vzero))).

Lemma vectorToFrame_spec : forall x, length x = 6%nat -> vectorToFrame x = F (rot_of (ang x)) (lin x).
Proof. intros x L. do 7 (destruct x as [|? x]; try discriminate). reflexivity. Qed.

Lemma lp_target_hand : forall names e x0 k first r, rotation_matrix e -> length x0 = 6%nat -> k <> 0 -> hand_pose names e x0 k first r (lp_target names e x0 k first r).
Proof.
  intros names e x0 k first r RE L Hk. unfold lp_target, hand_pose. cbv zeta. rewrite vectorToFrame_spec by exact L.
  set (m := mm (rot_of (ang x0)) e).
  set (fx := configureFixedAxes names).
  assert (FX : forall i, (i < 6)%nat -> (nth i fx false = true <-> is_fixed names i)) by (intros; apply fixed_nth; assumption).
  set (rot := if _ && _ && _ then _ else _).
  set (p := fun i => if nth i fx false then 0 else (nth i r 0 * / 1000 - nth i first 0 * / 1000) / k).
  assert (FM : fM (fmul (fmul (fmul (F (rot_of (ang x0)) (lin x0)) (F e vzero)) (F rot (V (p 0%nat) (p 1%nat) (p 2%nat)))) (finv (F e vzero))) = mm m (mm rot (mT e))).
  { unfold fmul, finv. cbn [fM fp]. fold m. unfold mm. cbn. f_equal; ring. }
  assert (FP : fp (fmul (fmul (fmul (F (rot_of (ang x0)) (lin x0)) (F e vzero)) (F rot (V (p 0%nat) (p 1%nat) (p 2%nat)))) (finv (F e vzero)))
             = vadd (lin x0) (mv m (V (p 0%nat) (p 1%nat) (p 2%nat)))).
  { unfold fmul, finv. cbn [fM fp]. fold m. unfold vneg, vadd, mv, vzero. cbn. f_equal; ring. }
  change (if nth 0 fx false then 0 else (nth 0 r 0 * / 1000 - nth 0 first 0 * / 1000) / k) with (p 0%nat).
  change (if nth 1 fx false then 0 else (nth 1 r 0 * / 1000 - nth 1 first 0 * / 1000) / k) with (p 1%nat).
  change (if nth 2 fx false then 0 else (nth 2 r 0 * / 1000 - nth 2 first 0 * / 1000) / k) with (p 2%nat).
  unfold frameToVector. rewrite FM, FP. cbv zeta.
  split; [reflexivity|]. split.
  - exists (p 0%nat), (p 1%nat), (p 2%nat).
    assert (MV : forall i, (i < 6)%nat -> moved names (1000 * k) first r i (p i)).
    { intros i Hi. specialize (FX i Hi). unfold moved, p. destruct (nth i fx false).
      - split; [reflexivity|]. intro N. exfalso. apply N, FX. reflexivity.
      - split; [intro N; apply FX in N; discriminate|]. intros _. field. lra. }
    split; [apply MV; lia|]. split; [apply MV; lia|]. split; [apply MV; lia|]. unfold lin at 1. cbn [nth]. reflexivity.
  - exists rot.
    pose proof (FX 3%nat ltac:(lia)) as F3. pose proof (FX 4%nat ltac:(lia)) as F4. pose proof (FX 5%nat ltac:(lia)) as F5.
    assert (RR : rotation_matrix rot).
    { unfold rot. destruct (_ && _ && _)%bool; [|apply rot_id]. unfold RPY. apply rot_mm; [|apply rot_mm].
      - rewrite RotZ_Rot2. apply Rot2_rot, unit_ez. - rewrite RotY_Rot2. apply Rot2_rot, unit_ey. - rewrite RotX_Rot2. apply Rot2_rot, unit_ex. }
    assert (RM : rotation_matrix m) by (apply rot_mm; [apply rot_of_rot|exact RE]).
    split; [|split].
    + intros (N3 & N4 & N5). unfold rot.
      destruct (nth 3 fx false); [exfalso; tauto|]. destruct (nth 4 fx false); [exfalso; tauto|]. destruct (nth 5 fx false); [exfalso; tauto|]. reflexivity.
    + intro N. unfold rot.
      destruct (nth 3 fx false); [reflexivity|]. destruct (nth 4 fx false); [reflexivity|]. destruct (nth 5 fx false); [reflexivity|].
      exfalso. destruct F3, F4, F5. destruct N as [N|[N|N]]; [apply H0 in N|apply H2 in N|apply H4 in N]; discriminate.
    + intro G. transitivity (rot_of (GetRot (mm m (mm rot (mT e))))).
      * unfold ang. cbn [nth]. destruct (GetRot (mm m (mm rot (mT e)))); reflexivity.
      * apply rot_of_GetRot; [|exact G]. apply rot_mm; [exact RM|]. apply rot_mm; [exact RR|]. apply rot_mT. exact RE.
Qed.

Lemma leap_transform_target : forall names e x0 k first r d, k <> 0 ->
  lp_fixed d = configureFixedAxes names -> lp_ee_leap d = F e vzero -> lp_base_leap d = fmul (vectorToFrame x0) (F e vzero) ->
  lp_offset d = [nth 0 first 0 * / 1000; nth 1 first 0 * / 1000; nth 2 first 0 * / 1000; nth 3 first 0; nth 4 first 0; nth 5 first 0] ->
  lp_data d = [nth 0 r 0 * / 1000; nth 1 r 0 * / 1000; nth 2 r 0 * / 1000; nth 3 r 0; nth 4 r 0; nth 5 r 0] ->
  leap_transform d k = Some (leap_set d (lp_target names e x0 k first r)).
Proof.
  intros names e x0 k first r d Hk H1 H2 H3 H4 H5. unfold leap_transform.
  replace (Reqb k 0) with false by (symmetry; apply Reqb_false; exact Hk). cbn [andb]. rewrite H1, H2, H3, H4, H5. reflexivity.
Qed.

(* one update *)
Lemma leap_update : forall pose names e x0 first scaling prox high low nolow c i, scaling <> 0 ->
  leap_inv pose names e x0 first scaling prox high low nolow c -> acquired (u_reading i) -> ~ (prox = true /\ near high (u_prox i)) ->
  exists d f a d', c_dev c = DLeap d /\ slowdown prox nolow low (u_prox i) f /\
   let y := lp_target names e x0 (scaling * f) first (u_reading i) in
   let ac := if negb (Z.eqb a VOCAB_CC_ACTUATOR_NONE) then [SAct a] else [] in
   lp_data d' = y /\ lp_prev d' = lp_prev d /\ lp_time d' = lp_time d /\ lp_pose d' = pose /\ lp_fixed d' = lp_fixed d /\ lp_ee_leap d' = lp_ee_leap d /\
   lp_base_leap d' = lp_base_leap d /\ lp_offset d' = lp_offset d /\ (lp_has d' = false -> lp_act d' = VOCAB_CC_ACTUATOR_NONE) /\
   (length (u_reading i) = 6%nat -> lp_has d = false -> a = VOCAB_CC_ACTUATOR_NONE /\ lp_has d' = false) /\
   (length (u_reading i) = 8%nat -> a = next_actuator (Reqb (nth 6 (u_reading i) 0) 1) (Reqb (nth 7 (u_reading i) 0) 1) (lp_act d)) /\
   update c i = if (Z.eqb a VOCAB_CC_ACTUATOR_NONE && existsb (fun x => negb (Reqb x 0)) y)%bool
                then match leap_send d' (u_time i) with Some (m, d4) => Some (m, set_dev c (DLeap d4) false) | None => None end
                else Some (ac, set_dev c (DLeap d') true).
Proof.
  intros pose names e x0 first scaling prox high low nolow c i Hs (H1 & H2 & H3 & H4 & H5 & H6 & AF & d & D1 & D2 & D3 & D4 & D5 & D6 & D7) Ha NH.
  destruct (leap_acquired d (u_reading i) Ha) as (h & g & p & Q & HF & H6L & H8L).
  pose proof (proximity_high c (u_prox i)) as PH. rewrite H2, H3 in PH.
  assert (D : proximity c (u_prox i) <> HighAlert) by (intro Z; apply NH, PH, Z).
  pose proof (factor_slow c (u_prox i) D) as SL. rewrite H2, H4, H5 in SL.
  pose proof (factor_pos c (u_prox i)) as FP.
  assert (FE : match proximity c (u_prox i) with LowAlert => c_scaling c * 2 | _ => c_scaling c end = scaling * factor c (u_prox i)).
  { unfold factor. rewrite H1. destruct (proximity c (u_prox i)); ring. }
  set (f := factor c (u_prox i)) in *.
  assert (KN : scaling * f <> 0) by (apply Rmult_integral_contrapositive; split; [exact Hs|lra]).
  set (a := if negb h then VOCAB_CC_ACTUATOR_NONE else next_actuator g p (lp_act d)).
  set (y := lp_target names e x0 (scaling * f) first (u_reading i)).
  set (act' := if negb h then lp_act d else next_actuator g p (lp_act d)).
  exists d, f, a, (Leap (lp_pose d) (lp_fixed d) y (lp_ee_leap d) (lp_base_leap d) (lp_offset d) (lp_prev d) (lp_time d) h g p act').
  split; [exact D1|]. split; [exact SL|]. cbv zeta.
  cbn [lp_pose lp_fixed lp_data lp_ee_leap lp_base_leap lp_offset lp_prev lp_time lp_has lp_grab lp_pinch lp_act].
  assert (HA : h = false -> act' = VOCAB_CC_ACTUATOR_NONE) by (intro Z; unfold act'; rewrite Z; cbn; auto).
  assert (AA : act' = a) by (unfold act', a in *; destruct h; cbn [negb] in *; auto).
  repeat (split; [reflexivity || assumption|]).
  split; [intros L6 LH; assert (HH : h = false) by (rewrite (H6L L6); exact LH); split; [unfold a; rewrite HH; reflexivity|exact HH]|].
  split; [intros L8; destruct (H8L L8) as (-> & -> & ->); unfold a; reflexivity|].
  unfold update. rewrite D1. cbn [acquire]. rewrite Q. cbn [option_map].
  set (d1 := Leap (lp_pose d) (lp_fixed d) _ (lp_ee_leap d) (lp_base_leap d) (lp_offset d) (lp_prev d) (lp_time d) h g p (lp_act d)).
  assert (AC : actuator (DLeap d1) = (a, DLeap (Leap (lp_pose d) (lp_fixed d) (lp_data d1) (lp_ee_leap d) (lp_base_leap d) (lp_offset d) (lp_prev d) (lp_time d) h g p act'))).
  { unfold actuator, leap_actuator, d1, a, act'. cbn [lp_has lp_grab lp_pinch lp_act lp_pose lp_fixed lp_data lp_ee_leap lp_base_leap lp_offset lp_prev lp_time]. destruct h; reflexivity. }
  assert (G : forall s, s = scaling * f ->
     (let '(a, d0) := actuator (DLeap d1) in
       let acts := if negb (Z.eqb a VOCAB_CC_ACTUATOR_NONE) then [SAct a] else [] in
       match transform d0 s with
       | Some d2 =>
            let '(d3, k) := apply_centroid c d2 i in
            let c := set_centroid c k in
            if valid d3 then
             match send d3 (u_time i) with
             | Some (m, d4) => Some (acts ++ m, set_dev c d4 false)
             | None => None
             end
            else Some (acts ++ (if c_stopped c then [] else stop_motion d3), set_dev c d3 true)
        | None => None
        end) = if (Z.eqb a VOCAB_CC_ACTUATOR_NONE && existsb (fun x => negb (Reqb x 0)) y)%bool
                then match leap_send (Leap (lp_pose d) (lp_fixed d) y (lp_ee_leap d) (lp_base_leap d) (lp_offset d) (lp_prev d) (lp_time d) h g p act') (u_time i) with
                     Some (m, d4) => Some (m, set_dev c (DLeap d4) false) | None => None end
                else Some (if negb (Z.eqb a VOCAB_CC_ACTUATOR_NONE) then [SAct a] else [],
                           set_dev c (DLeap (Leap (lp_pose d) (lp_fixed d) y (lp_ee_leap d) (lp_base_leap d) (lp_offset d) (lp_prev d) (lp_time d) h g p act')) true)).
  { intros s ->. rewrite AC. cbn [transform].
    rewrite (leap_transform_target names e x0 (scaling * f) first (u_reading i)) by (first [exact KN|assumption|reflexivity]).
    cbn [option_map]. unfold apply_centroid. rewrite H6. unfold leap_set.
    cbn [lp_pose lp_fixed lp_data lp_ee_leap lp_base_leap lp_offset lp_prev lp_time lp_has lp_grab lp_pinch lp_act]. fold y.
    assert (ES : set_centroid c (c_centroid c) = c) by (destruct c; reflexivity). rewrite ES. clear ES.
    cbv zeta. cbn [valid lp_act lp_data]. unfold base_valid. rewrite AA.
    destruct (Z.eqb a VOCAB_CC_ACTUATOR_NONE); cbn [negb andb app].
    - destruct (existsb _ y); cbn [send].
      + destruct (leap_send _ _) as [[m d4]|]; reflexivity.
      + cbn [stop_motion]. unfold leap_stop. destruct (c_stopped c); reflexivity.
    - cbn [stop_motion]. unfold leap_stop. destruct (c_stopped c); reflexivity. }
  destruct (proximity c (u_prox i)); [| |congruence]; apply G; exact FE.
Qed.

Lemma leap_inv_step : forall pose names e x0 first scaling prox high low nolow c i cs' c', scaling <> 0 ->
  leap_inv pose names e x0 first scaling prox high low nolow c -> update c i = Some (cs', c') -> leap_inv pose names e x0 first scaling prox high low nolow c'.
Proof.
  intros pose names e x0 first scaling prox high low nolow c i cs' c' Hs IV U.
  pose proof IV as (H1 & H2 & H3 & H4 & H5 & H6 & AF & d & D1 & D2 & D3 & D4 & D5 & D6 & D7).
  destruct (acquired_dec (u_reading i)) as [Ha|Ha].
  2:{ unfold update in U. rewrite D1 in U. cbn [acquire] in U. rewrite leap_refused in U by exact Ha. cbn in U. apply some_inj, pair_inj in U. destruct U as [_ <-]. exact IV. }
  pose proof (proximity_high c (u_prox i)) as PH. rewrite H2, H3 in PH.
  assert (D : proximity c (u_prox i) = HighAlert \/ proximity c (u_prox i) <> HighAlert) by (destruct (proximity c (u_prox i)); [right|right|left]; congruence).
  assert (KEEP : forall d' st, lp_pose d' = pose -> lp_fixed d' = lp_fixed d -> lp_ee_leap d' = lp_ee_leap d -> lp_base_leap d' = lp_base_leap d -> lp_offset d' = lp_offset d ->
    (lp_has d' = false -> lp_act d' = VOCAB_CC_ACTUATOR_NONE) -> leap_inv pose names e x0 first scaling prox high low nolow (set_dev c (DLeap d') st)).
  { intros d' st E1 E2 E3 E4 E5 E6. unfold leap_inv, set_dev. cbn. repeat (split; [assumption|]). exists d'. split; [reflexivity|]. repeat (split; [congruence|]). exact E6. }
  destruct D as [D|D].
  - destruct (leap_acquired d (u_reading i) Ha) as (h & g & p & Q & HF & H6L & H8L).
    unfold update in U. rewrite D1 in U. cbn [acquire] in U. rewrite Q in U. cbn [option_map] in U. rewrite D in U.
    apply some_inj, pair_inj in U. destruct U as [_ <-]. apply KEEP; cbn; auto.
  - assert (NH : ~ (prox = true /\ near high (u_prox i))) by (intro Z; apply D, PH, Z).
    destruct (leap_update _ _ _ _ _ _ _ _ _ _ _ i Hs IV Ha NH) as (d0 & f & a & d' & DD & _ & LU). cbv zeta in LU.
    destruct LU as (_ & _ & _ & E1 & E2 & E3 & E4 & E5 & E6 & _ & _ & E). assert (d0 = d) by congruence. subst d0. rewrite E in U.
    destruct (_ && _)%bool.
    + unfold leap_send in U. destruct (lp_pose d') eqn:LP; [apply some_inj, pair_inj in U; destruct U as [_ <-]; apply KEEP; congruence || assumption|].
      cbv zeta in U. destruct (negb (Reqb (lp_time d') 0)).
      * destruct (Reqb _ 0); [discriminate|]. apply some_inj, pair_inj in U. destruct U as [_ <-]. apply KEEP; cbn; congruence || assumption.
      * apply some_inj, pair_inj in U. destruct U as [_ <-]. apply KEEP; cbn; congruence || assumption.
    + apply some_inj, pair_inj in U. destruct U as [_ <-]. apply KEEP; assumption.
Qed.

Lemma leap_inv_history : forall pose names e x0 first scaling prox high low nolow k c0 is cs c, scaling <> 0 ->
  leap_controller pose names e x0 first scaling prox high low nolow k c0 -> updates c0 is = Some (cs, c) -> leap_inv pose names e x0 first scaling prox high low nolow c.
Proof.
  intros pose names e x0 first scaling prox high low nolow k c0 is cs c Hs HC HU. revert HU.
  apply (history_ind (fun _ c => leap_inv pose names e x0 first scaling prox high low nolow c)).
  - eapply leap_start. exact HC.
  - intros. eapply leap_inv_step; eassumption.
Qed.

Lemma hand_unique : forall names e x0 k first r y y', hand_pose names e x0 k first r y -> hand_pose names e x0 k first r y' -> lin y = lin y'.
Proof.
  intros names e x0 k first r y y' (_ & (a & b & c & A & B & C & E) & _) (_ & (a' & b' & c' & A' & B' & C' & E') & _).
  assert (U : forall i u v, (i < 6)%nat -> moved names (1000 * k) first r i u -> moved names (1000 * k) first r i v -> u = v).
  { intros i u v Hi [M1 M2] [N1 N2]. destruct (nth i (configureFixedAxes names) false) eqn:F.
    - apply fixed_nth in F; [|exact Hi]. rewrite M1, N1 by exact F. reflexivity.
    - assert (NF : ~ is_fixed names i) by (intro Z; apply fixed_nth in Z; [congruence|exact Hi]). rewrite M2, N2 by exact NF. reflexivity. }
  rewrite E, E'. rewrite (U 0%nat a a'), (U 1%nat b b'), (U 2%nat c c') by (lia || assumption). reflexivity.
Qed.

Lemma leap_pose_lemma : forall names e x0 first scaling prox high low nolow k c0 is cs c i, scaling <> 0 ->
  leap_controller true names e x0 first scaling prox high low nolow k c0 -> updates c0 is = Some (cs, c) ->
  acquired (u_reading i) -> ~ (prox = true /\ near high (u_prox i)) ->
  exists cs' c' f y, update c i = Some (cs', c') /\ slowdown prox nolow low (u_prox i) f /\ hand_pose names e x0 (scaling * f) first (u_reading i) y /\
    (acts cs' = [] -> nonzero y -> poses cs' = [y]).
Proof.
  intros names e x0 first scaling prox high low nolow k c0 is cs c i Hs HC HU Ha NH.
  pose proof (leap_inv_history _ _ _ _ _ _ _ _ _ _ _ _ _ _ _ Hs HC HU) as IV.
  destruct HC as (rpy & n & ics & d0 & _ & _ & L & RE & _).
  destruct (leap_update _ _ _ _ _ _ _ _ _ _ _ i Hs IV Ha NH) as (d & f & a & d' & DD & SL & LU). cbv zeta in LU.
  destruct LU as (E0 & _ & _ & E1 & _ & _ & _ & _ & _ & _ & _ & E).
  set (y := lp_target names e x0 (scaling * f) first (u_reading i)) in *.
  assert (KN : scaling * f <> 0).
  { apply Rmult_integral_contrapositive. split; [exact Hs|]. destruct SL as [S1 S2].
    destruct (near_dec low (u_prox i)) as [N|N]; destruct prox, nolow;
      first [rewrite S1 by auto; lra | rewrite S2 by (intros (Z1 & Z2 & Z3); congruence || contradiction); lra]. }
  pose proof (lp_target_hand names e x0 (scaling * f) first (u_reading i) RE L KN) as HP. fold y in HP.
  unfold leap_send in E. rewrite E1, E0 in E.
  destruct (Z.eqb a VOCAB_CC_ACTUATOR_NONE) eqn:EA; cbn [andb negb] in E.
  - destruct (existsb (fun x => negb (Reqb x 0)) y) eqn:B.
    + eexists; eexists; exists f, y. split; [exact E|]. split; [exact SL|]. split; [exact HP|]. reflexivity.
    + eexists; eexists; exists f, y. split; [exact E|]. split; [exact SL|]. split; [exact HP|]. intros _ NZ. apply base_valid_nonzero in NZ. congruence.
  - eexists; eexists; exists f, y. split; [exact E|]. split; [exact SL|]. split; [exact HP|]. cbn. discriminate.
Qed.

Lemma leap_twist_lemma : forall names e x0 first scaling prox high low nolow k c0 is cs c i j cs1 c1 cs2 c2 f g y z, scaling <> 0 ->
  leap_controller false names e x0 first scaling prox high low nolow k c0 -> updates c0 is = Some (cs, c) ->
  update c i = Some (cs1, c1) -> update c1 j = Some (cs2, c2) ->
  acquired (u_reading i) -> ~ (prox = true /\ near high (u_prox i)) -> acts cs1 = [] ->
  acquired (u_reading j) -> ~ (prox = true /\ near high (u_prox j)) -> acts cs2 = [] ->
  slowdown prox nolow low (u_prox i) f -> slowdown prox nolow low (u_prox j) g ->
  hand_pose names e x0 (scaling * f) first (u_reading i) y -> hand_pose names e x0 (scaling * g) first (u_reading j) z ->
  nonzero (lin_list y) -> nonzero (lin_list z) -> u_time i <> 0 ->
  exists w, twists cs2 = [w] /\ vscale (u_time j - u_time i) (lin w) = vsub (lin z) (lin y).
Proof.
  intros names e x0 first scaling prox high low nolow k c0 is cs c i j cs1 c1 cs2 c2 f g y z Hs HC HU U1 U2 Ai Ni Ac1 Aj Nj Ac2 SLi SLj HY HZ NY NZ TI.
  pose proof (leap_inv_history _ _ _ _ _ _ _ _ _ _ _ _ _ _ _ Hs HC HU) as IV.
  pose proof (leap_inv_step _ _ _ _ _ _ _ _ _ _ _ _ _ _ Hs IV U1) as IV1.
  destruct HC as (rpy & n & ics & d0 & _ & _ & L & RE & _).
  assert (SU : forall b u v, slowdown prox nolow low b u -> slowdown prox nolow low b v -> u = v /\ scaling * u <> 0).
  { intros b u v [S1 S2] [T1 T2].
    assert (W : (u = 2 /\ v = 2) \/ (u = 1 /\ v = 1)).
    { destruct (near_dec low b) as [N|N]; destruct prox, nolow;
      first [left; rewrite S1, T1 by auto; lra | right; rewrite S2, T2 by (intros (Z1 & Z2 & Z3); congruence || contradiction); lra]. }
    split; [lra|]. apply Rmult_integral_contrapositive. split; [exact Hs|lra]. }
  destruct (leap_update _ _ _ _ _ _ _ _ _ _ _ i Hs IV Ai Ni) as (d & f' & a & d' & DD & SL & LU). cbv zeta in LU.
  destruct LU as (E0 & _ & _ & E1 & _ & _ & _ & _ & _ & _ & _ & E).
  destruct (SU _ _ _ SL SLi) as [-> KF].
  set (y' := lp_target names e x0 (scaling * f) first (u_reading i)) in *.
  pose proof (lp_target_hand names e x0 (scaling * f) first (u_reading i) RE L KF) as HP. fold y' in HP.
  destruct (leap_update _ _ _ _ _ _ _ _ _ _ _ j Hs IV1 Aj Nj) as (d1 & g' & b & d1' & DD1 & SL1 & LU1). cbv zeta in LU1.
  destruct LU1 as (E0' & EP' & ET' & E1' & _ & _ & _ & _ & _ & _ & _ & E').
  destruct (SU _ _ _ SL1 SLj) as [-> KG].
  set (z' := lp_target names e x0 (scaling * g) first (u_reading j)) in *.
  pose proof (lp_target_hand names e x0 (scaling * g) first (u_reading j) RE L KG) as HP'. fold z' in HP'.
  pose proof (hand_unique _ _ _ _ _ _ _ _ HY HP) as LY. pose proof (hand_unique _ _ _ _ _ _ _ _ HZ HP') as LZ.
  assert (VV : forall u u', lin u = lin u' -> nonzero (lin_list u) -> length u' = 6%nat -> existsb (fun x => negb (Reqb x 0)) u' = true).
  { intros u u' LL NN L6. apply base_valid_nonzero. unfold lin_list in NN. rewrite LL in NN. unfold lin in NN. cbn in NN.
    do 7 (destruct u' as [|? u']; try discriminate). cbn in NN. unfold nonzero in *.
    apply Exists_cons in NN; destruct NN as [NN|NN]; [apply Exists_cons_hd; exact NN|].
    apply Exists_cons in NN; destruct NN as [NN|NN]; [apply Exists_cons_tl, Exists_cons_hd; exact NN|].
    apply Exists_cons in NN; destruct NN as [NN|NN]; [apply Exists_cons_tl, Exists_cons_tl, Exists_cons_hd; exact NN|inversion NN]. }
  rewrite (VV y y' LY NY (proj1 HP)) in E. rewrite (VV z z' LZ NZ (proj1 HP')) in E'. rewrite andb_true_r in E, E'.
  destruct (Z.eqb a VOCAB_CC_ACTUATOR_NONE) eqn:EA.
  2:{ rewrite E in U1. apply some_inj, pair_inj in U1. destruct U1 as [<- _]. discriminate. }
  destruct (Z.eqb b VOCAB_CC_ACTUATOR_NONE) eqn:EB.
  2:{ rewrite E' in U2. apply some_inj, pair_inj in U2. destruct U2 as [<- _]. discriminate. }
  (* the state after the first update *)
  assert (ST : lp_prev d1 = vectorToFrame y' /\ lp_time d1 = u_time i).
  { unfold leap_send in E. rewrite E1, E0 in E. cbv zeta in E. rewrite E in U1. destruct (negb (Reqb (lp_time d') 0)).
    - destruct (Reqb _ 0); [discriminate|]. apply some_inj, pair_inj in U1. destruct U1 as [_ <-]. cbn in DD1.
      assert (Q : forall p q, DLeap p = DLeap q -> p = q) by (intros; congruence). apply Q in DD1. subst d1. split; reflexivity.
    - apply some_inj, pair_inj in U1. destruct U1 as [_ <-]. cbn in DD1.
      assert (Q : forall p q, DLeap p = DLeap q -> p = q) by (intros; congruence). apply Q in DD1. subst d1. split; reflexivity. }
  destruct ST as [SP STT]. unfold leap_send in E'. rewrite E1', E0', EP', ET', SP, STT in E'. cbv zeta in E'.
  replace (Reqb (u_time i) 0) with false in E' by (symmetry; apply Reqb_false; exact TI). cbn [negb] in E'.
  rewrite E' in U2. destruct (Reqb (u_time j - u_time i) 0) eqn:ETJ; [discriminate|]. apply Reqb_false in ETJ.
  apply some_inj, pair_inj in U2. destruct U2 as [<- _].
  eexists. split; [reflexivity|].
  rewrite (vectorToFrame_spec y' (proj1 HP)), (vectorToFrame_spec z' (proj1 HP')).
  unfold frame_diff_dt, frame_diff, twistToVector. cbn [t_vel t_rot fp fM]. rewrite LY, LZ.
  unfold lin at 1. cbn [nth]. unfold vscale, vsub. cbn [vx vy vz]. f_equal; field; exact ETJ.
Qed.

Lemma leap_high : forall c d i, c_dev c = DLeap d -> acquired (u_reading i) -> proximity c (u_prox i) = HighAlert -> exists c', update c i = Some ([], c').
Proof.
  intros c d i D Ha P. destruct (leap_acquired d (u_reading i) Ha) as (h & g & p & Q & _ & _).
  unfold update. rewrite D. cbn [acquire]. rewrite Q. cbn [option_map]. rewrite P. eexists. destruct (c_stopped c); reflexivity.
Qed.
