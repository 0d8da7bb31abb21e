From Coq Require Import Reals Lra Psatz List Bool String ZArith Lia.
From Verif Require Import Kdl KdlFacts KdlRot KdlRotFacts KinRep Vocab Ft Stream StreamSpec StreamFacts StreamFacts2.
Import ListNotations.
Open Scope R_scope.
Local Notation S := Datatypes.S.
Local Notation length := List.length.

(** * The SpaceNavigator in pose mode *)
Definition sp_step (fixed : list bool) (k : R) (x r : list R) : list R :=
  map (fun fxd => if fst (fst fxd) : bool then snd (fst fxd) else snd (fst fxd) + k * snd fxd) (combine (combine fixed x) (firstn 6 r)).

Lemma sp_step_nth : forall f k x r i, length f = 6%nat -> length x = 6%nat -> acquired r -> (i < 6)%nat ->
  nth i (sp_step f k x r) 0 = if nth i f false then nth i x 0 else nth i x 0 + k * nth i r 0.
Proof.
  intros f k x r i LF LX Ha Hi. unfold sp_step.
  assert (L : length (firstn 6 r) = 6%nat) by (rewrite firstn_length; unfold acquired in Ha; lia).
  assert (N : nth i (firstn 6 r) 0 = nth i r 0) by (rewrite <- (firstn_skipn 6 r) at 2; rewrite app_nth1 by lia; reflexivity).
  rewrite <- N. revert L. generalize (firstn 6 r). intros l L. clear - LF LX L Hi.
  do 7 (destruct f as [|? f]; try discriminate). do 7 (destruct l as [|? l]; try discriminate). do 7 (destruct x as [|? x]; try discriminate).
  do 6 (destruct i as [|i]; [reflexivity|]). lia.
Qed.
Lemma sp_step_length : forall f k x r, length f = 6%nat -> length x = 6%nat -> acquired r -> length (sp_step f k x r) = 6%nat.
Proof.
  intros f k x r LF LX Ha. unfold sp_step. rewrite map_length, !combine_length, firstn_length. unfold acquired in Ha. lia.
Qed.
Lemma sp_step_valid : forall names k x r, k <> 0 -> length x = 6%nat -> acquired r ->
  existsb (fun fxd : bool * R * R => negb (fst (fst fxd)) && negb (Reqb (snd fxd) (snd (fst fxd))))
     (combine (combine (configureFixedAxes names) x) (sp_step (configureFixedAxes names) k x r)) = true <-> pushed names r.
Proof.
  intros names k x r Hk LX Ha. pose proof (fixed_length names) as LF.
  pose proof (sp_step_length _ k x r LF LX Ha) as LS.
  assert (EQ : forall i, (i < 6)%nat -> nth i (combine (combine (configureFixedAxes names) x) (sp_step (configureFixedAxes names) k x r)) (false, 0, 0)
             = (nth i (configureFixedAxes names) false, nth i x 0, nth i (sp_step (configureFixedAxes names) k x r) 0)).
  { intros i Hi. rewrite combine_nth by (rewrite combine_length; lia). rewrite combine_nth by lia. reflexivity. }
  rewrite existsb_exists. split.
  - intros (p & I & B). apply In_nth with (d := (false, 0, 0)) in I. destruct I as (i & Li & E).
    rewrite !combine_length in Li. assert (Hi : (i < 6)%nat) by lia. rewrite EQ in E by exact Hi. subst p. cbn [fst snd] in B.
    apply andb_true_iff in B. destruct B as [B1 B2]. apply negb_true_iff in B1. apply negb_true_iff, Reqb_false in B2.
    rewrite sp_step_nth, B1 in B2 by assumption. exists i. split; [exact Hi|]. split.
    + intro F. apply fixed_nth in F; [congruence|exact Hi].
    + intro Z. apply B2. rewrite Z. ring.
  - intros (i & Hi & F & N).
    exists (nth i (configureFixedAxes names) false, nth i x 0, nth i (sp_step (configureFixedAxes names) k x r) 0). split.
    + rewrite <- EQ by exact Hi. apply nth_In. rewrite !combine_length. lia.
    + cbn [fst snd]. assert (B : nth i (configureFixedAxes names) false = false).
      { destruct (nth i (configureFixedAxes names) false) eqn:B; [|reflexivity]. exfalso. apply F, fixed_nth; assumption. }
      rewrite B. cbn [negb andb]. apply negb_true_iff, Reqb_false. rewrite sp_step_nth, B by assumption.
      intro Z. apply N. apply Rmult_eq_reg_l with k; [lra|exact Hk].
Qed.
Lemma sp_step_advanced : forall names k x r, length x = 6%nat -> acquired r -> advanced names k x r (sp_step (configureFixedAxes names) k x r).
Proof.
  intros names k x r LX Ha. pose proof (fixed_length names) as LF. split; [apply sp_step_length; assumption|].
  intros i Hi. rewrite sp_step_nth by assumption. pose proof (fixed_nth names i Hi) as FN.
  destruct (nth i (configureFixedAxes names) false); split; intro H; try reflexivity.
  - exfalso. apply H, FN. reflexivity.
  - apply FN in H. discriminate.
Qed.

Definition pose_inv (gain : R) (fixed : list bool) (scaling : R) (prox : bool) (high low : Z) (nolow : bool) (x0 : list R) (cs : list s_cmd) (c : sdc) : Prop :=
  c_scaling c = scaling /\ c_prox c = prox /\ c_high c = high /\ c_low c = low /\ c_nolow c = nolow /\ c_cent c = false /\
  twists cs = [] /\
  exists d, c_dev c = DSpnav d /\ sp_pose d = true /\ sp_gain d = gain /\ sp_fixed d = fixed /\ sp_cur d = last (poses cs) x0 /\ length (sp_cur d) = 6%nat.

Lemma pose_update : forall gain names scaling prox high low nolow x0 cs c i,
  scaling <> 0 -> 0 < gain -> pose_inv gain (configureFixedAxes names) scaling prox high low nolow x0 cs c ->
  exists cs' c', update c i = Some (cs', c') /\ pose_inv gain (configureFixedAxes names) scaling prox high low nolow x0 (cs ++ cs') c' /\
    (~ acquired (u_reading i) -> cs' = []) /\
    (acquired (u_reading i) ->
     let go := ~ (prox = true /\ near high (u_prox i)) /\ pushed names (u_reading i) in
     (go -> exists f y, slowdown prox nolow low (u_prox i) f /\ advanced names (gain / (scaling * f)) (last (poses cs) x0) (u_reading i) y /\ poses cs' = [y]) /\
     (~ go -> poses cs' = [])).
Proof.
  intros gain names scaling prox high low nolow x0 cs c i Hs Hg (H1 & H2 & H3 & H4 & H5 & H6 & TW & d & D1 & D2 & D3 & D4 & D5 & D6).
  destruct (acquired_dec (u_reading i)) as [Ha|Ha].
  2:{ exists [], c. split; [unfold update; rewrite D1; cbn [acquire]; rewrite spnav_refused by exact Ha; reflexivity|].
      rewrite app_nil_r. split; [|tauto]. repeat (split; [assumption|]). exists d. auto 10. }
  destruct (spnav_acquired d (u_reading i) Ha) as (cl & op & Q & _ & _).
  assert (D : proximity c (u_prox i) = HighAlert \/ proximity c (u_prox i) <> HighAlert) by (destruct (proximity c (u_prox i)); [right|right|left]; congruence).
  pose proof (proximity_high c (u_prox i)) as PH. rewrite H2, H3 in PH.
  destruct D as [D|D].
  { exists [], (set_dev c (DSpnav (Spnav (sp_pose d) (sp_gain d) (sp_fixed d) (firstn 6 (u_reading i)) (sp_cur d) cl op (sp_act d))) true).
    split.
    { unfold update. rewrite D1. cbn [acquire]. rewrite Q. cbn [option_map]. rewrite D. cbn [stop_motion]. unfold spnav_stop. cbn [sp_pose]. rewrite D2.
      destruct (c_stopped c); reflexivity. }
    rewrite app_nil_r. split.
    { unfold set_dev. cbn. repeat (split; [assumption|]). eexists. split; [reflexivity|]. cbn. auto. }
    split; [reflexivity|]. intros _. cbv zeta. split; [intros [G _]; exfalso; apply G, PH, D|reflexivity]. }
  pose proof (factor_slow c (u_prox i) D) as SL. rewrite H2, H4, H5 in SL.
  pose proof (factor_pos c (u_prox i)) as FP.
  assert (FE : match proximity c (u_prox i) with LowAlert => c_scaling c * 2 | _ => c_scaling c end = scaling * factor c (u_prox i)).
  { unfold factor. rewrite H1. destruct (proximity c (u_prox i)); ring. }
  set (f := factor c (u_prox i)) in *.
  assert (KN : scaling * f <> 0) by (apply Rmult_integral_contrapositive; split; [exact Hs|lra]).
  set (a := next_actuator cl op (sp_act d)).
  set (y := sp_step (configureFixedAxes names) (gain / (scaling * f)) (sp_cur d) (u_reading i)).
  assert (LY : length y = 6%nat) by (apply sp_step_length; [apply fixed_length|exact D6|exact Ha]).
  assert (K2 : gain / (scaling * f) <> 0) by (unfold Rdiv; apply Rmult_integral_contrapositive; split; [lra|apply Rinv_neq_0_compat; exact KN]).
  pose proof (sp_step_valid names _ (sp_cur d) (u_reading i) K2 D6 Ha) as VA. fold y in VA.
  pose proof (sp_step_advanced names (gain / (scaling * f)) (sp_cur d) (u_reading i) D6 Ha) as AD. fold y in AD.
  set (ac := if negb (Z.eqb a VOCAB_CC_ACTUATOR_NONE) then [SAct a] else []).
  assert (AC : twists ac = [] /\ poses ac = []) by (unfold ac; destruct (negb _); split; reflexivity).
  destruct AC as [AC1 AC2].
  set (v := existsb (fun fxd : bool * R * R => negb (fst (fst fxd)) && negb (Reqb (snd fxd) (snd (fst fxd)))) (combine (combine (configureFixedAxes names) (sp_cur d)) y)) in *.
  exists (ac ++ (if v then [SPose y] else [])),
    (set_dev c (DSpnav (Spnav true gain (configureFixedAxes names) y (if v then y else sp_cur d) cl op a)) (negb v)).
  split.
  { unfold update. rewrite D1. cbn [acquire]. rewrite Q. cbn [option_map].
    assert (G : forall X, (match proximity c (u_prox i) with HighAlert => X | al =>
       let scaling0 := match al with LowAlert => c_scaling c * 2 | _ => c_scaling c end in
       let '(a, d0) := actuator (DSpnav (Spnav (sp_pose d) (sp_gain d) (sp_fixed d) (firstn 6 (u_reading i)) (sp_cur d) cl op (sp_act d))) in
       let acts := if negb (Z.eqb a VOCAB_CC_ACTUATOR_NONE) then [SAct a] else [] in
       match transform d0 scaling0 with
       | Some d2 =>
            let '(d3, k) := apply_centroid c d2 i in
            let c := set_centroid c k in
            if valid d3 then
             match send d3 (u_time i) with
             | Some (m, d4) => Some (acts ++ m, set_dev c d4 false)
             | None => None
             end
            else Some (acts ++ (if c_stopped c then [] else stop_motion d3), set_dev c d3 true)
        | None => None
        end end) =
       (let '(a, d0) := actuator (DSpnav (Spnav (sp_pose d) (sp_gain d) (sp_fixed d) (firstn 6 (u_reading i)) (sp_cur d) cl op (sp_act d))) in
       let acts := if negb (Z.eqb a VOCAB_CC_ACTUATOR_NONE) then [SAct a] else [] in
       match transform d0 (scaling * f) with
       | Some d2 =>
            let '(d3, k) := apply_centroid c d2 i in
            let c := set_centroid c k in
            if valid d3 then
             match send d3 (u_time i) with
             | Some (m, d4) => Some (acts ++ m, set_dev c d4 false)
             | None => None
             end
            else Some (acts ++ (if c_stopped c then [] else stop_motion d3), set_dev c d3 true)
        | None => None
        end)).
    { intro X. destruct (proximity c (u_prox i)); [| |congruence]; cbv zeta; rewrite FE; reflexivity. }
    etransitivity; [apply G|]. clear G.
    cbn [actuator spnav_actuator sp_close sp_open sp_act sp_pose sp_gain sp_fixed sp_data sp_cur transform]. fold a.
    unfold spnav_transform. cbn [sp_close sp_open sp_act sp_pose sp_gain sp_fixed sp_data sp_cur]. rewrite D2, D3, D4, D6.
    replace (Reqb (scaling * f) 0) with false by (symmetry; apply Reqb_false; exact KN). cbn [Nat.ltb Nat.leb orb andb option_map].
    unfold apply_centroid. rewrite H6. unfold spnav_set. cbn [sp_close sp_open sp_act sp_pose sp_gain sp_fixed sp_data sp_cur valid].
    unfold spnav_valid. cbn [sp_close sp_open sp_act sp_pose sp_gain sp_fixed sp_data sp_cur].
    change (map _ _) with y. fold v. fold ac.
    assert (ES : set_centroid c (c_centroid c) = c) by (destruct c; reflexivity). rewrite ES. clear ES.
    destruct v; cbn [send spnav_send sp_close sp_open sp_act sp_pose sp_gain sp_fixed sp_data sp_cur negb].
    - replace (skipn 6 (sp_cur d)) with (@nil R); [rewrite app_nil_r; reflexivity|].
      symmetry. apply skipn_all2. lia.
    - cbn [stop_motion]. unfold spnav_stop. cbn [sp_pose]. destruct (c_stopped c); reflexivity. }
  split.
  { unfold pose_inv, set_dev. cbn. repeat (split; [assumption|]). rewrite !twists_app, !poses_app, TW, AC1, AC2.
    destruct v; (split; [reflexivity|]); eexists; (split; [reflexivity|]); cbn [sp_pose sp_gain sp_fixed sp_cur]; repeat (split; [reflexivity|]).
    - cbn [poses flat_map app]. split; [symmetry; apply last_last|exact LY].
    - cbn [poses flat_map app]. rewrite app_nil_r. split; [exact D5|exact D6]. }
  split; [tauto|]. intros _. cbv zeta. rewrite poses_app, AC2. cbn [app]. rewrite <- D5. split.
  - intros [_ G]. apply VA in G. rewrite G. exists f, y. auto.
  - intro NG. destruct v; [|reflexivity]. exfalso. apply NG. split; [intro Z; apply D, PH, Z|apply VA; reflexivity].
Qed.

Lemma pose_start : forall gain names n scaling prox high low nolow k c0,
  spnav_controller true gain names n scaling prox high low nolow k c0 -> (forall x, n_stat n = Some x -> length x = 6%nat) ->
  0 < gain /\ pose_inv gain (configureFixedAxes names) scaling prox high low nolow (match n_stat n with Some x => x | None => zeros6 end) [] c0.
Proof.
  intros gain names n scaling prox high low nolow k c0 (ics & d & I & ->) HX. unfold spnav_initialize in I. cbn [andb] in I.
  destruct (Rleb gain 0) eqn:G; [discriminate|]. cbv zeta in I. destruct (n_preset n && _)%bool; [discriminate|].
  destruct (negb (n_frame_ok n)); [discriminate|]. apply pair_inj in I. destruct I as [_ I]. apply some_inj in I. subst d.
  split.
  - destruct (Rlt_le_dec 0 gain) as [L|L]; [exact L|]. apply Rleb_true in L. congruence.
  - unfold pose_inv, configured_sdc. cbn. repeat (split; [reflexivity|]). eexists. split; [reflexivity|]. cbn. repeat (split; [reflexivity|]).
    destruct (n_stat n) as [x|]; [apply HX; reflexivity|reflexivity].
Qed.

Lemma pose_lemma : forall gain names n scaling prox high low nolow k c0 is,
  scaling <> 0 -> spnav_controller true gain names n scaling prox high low nolow k c0 -> (forall x, n_stat n = Some x -> length x = 6%nat) ->
  exists cs c, updates c0 is = Some (cs, c) /\ twists cs = [] /\
  forall i, exists cs' c', update c i = Some (cs', c') /\
    (~ acquired (u_reading i) -> cs' = []) /\
    (acquired (u_reading i) ->
     let go := ~ (prox = true /\ near high (u_prox i)) /\ pushed names (u_reading i) in
     let x := last (poses cs) (match n_stat n with Some x => x | None => zeros6 end) in
     (go -> exists f y, slowdown prox nolow low (u_prox i) f /\ advanced names (gain / (scaling * f)) x (u_reading i) y /\ poses cs' = [y]) /\
     (~ go -> poses cs' = [])).
Proof.
  intros gain names n scaling prox high low nolow k c0 is Hs HC HX.
  destruct (pose_start _ _ _ _ _ _ _ _ _ _ HC HX) as [Hg P0].
  set (x0 := match n_stat n with Some x => x | None => zeros6 end) in *.
  assert (G : exists cs c, updates c0 is = Some (cs, c) /\ pose_inv gain (configureFixedAxes names) scaling prox high low nolow x0 cs c).
  { induction is as [|i is IH] using rev_ind.
    - exists [], c0. split; [reflexivity|exact P0].
    - destruct IH as (cs & c & U & IV). destruct (pose_update _ _ _ _ _ _ _ _ _ _ i Hs Hg IV) as (cs' & c' & U' & IV' & _).
      exists (cs ++ cs'), c'. rewrite updates_app, U. cbn [updates]. rewrite U'. rewrite app_nil_r. auto. }
  destruct G as (cs & c & U & IV). exists cs, c. split; [exact U|]. split; [apply IV|].
  intro i. destruct (pose_update _ _ _ _ _ _ _ _ _ _ i Hs Hg IV) as (cs' & c' & U' & _ & B1 & B2). exists cs', c'. auto.
Qed.

(** * The centroid handler *)
Lemma vectorToFrame_rot : forall x, rotation_matrix (fM (vectorToFrame x)).
Proof.
  intro x. unfold vectorToFrame. do 7 (destruct x as [|? x]; try apply rot_id). cbn. apply Rot2_rot, normalize_unit.
Qed.

Lemma centroid_axis : forall m cx cy,
  mv m (mv (RotZ (PI / 2)) (V cx cy 0)) = mv m (V (- cy) cx 0).
Proof.
  intros m cx cy. unfold RotZ. rewrite cos_PI2, sin_PI2. unfold mv. cbn. f_equal; ring.
Qed.

Lemma steered_rotation : forall m cx cy, rotation_matrix m -> clear_centroid cx cy ->
  GetRot (Rot (mv m (mv (RotZ (PI / 2)) (V cx cy 0))) (norm (V cx cy 0) * / 10)) = mv m (V (- cy * / 10) (cx * / 10) 0).
Proof.
  intros m cx cy RM C. rewrite centroid_axis.
  assert (N : norm (mv m (V (- cy) cx 0)) = norm (V cx cy 0)).
  { unfold norm. rewrite dot_rot by exact RM. f_equal. unfold dot. cbn. ring. }
  destruct C as [[-> ->]|(E1 & E2 & E3)].
  - rewrite norm_vzero || (replace (norm (V 0 0 0)) with 0 by (unfold norm, dot; cbn; replace (0 * 0 + 0 * 0 + 0 * 0) with 0 by ring; symmetry; apply sqrt_0)).
    rewrite Rmult_0_l. unfold Rot. rewrite Rot2_zero. rewrite GetRot_id. unfold mv, vzero. cbn. f_equal; ring.
  - pose proof kdl_eps_pos as EP. unfold Rot, normalize. rewrite N.
    replace (Rltb (norm (V cx cy 0)) kdl_eps) with false by (symmetry; apply Rltb_false; lra).
    set (n := norm (V cx cy 0)) in *.
    assert (NP : 0 < n) by lra.
    unfold Rdiv in E2, E3.
    rewrite GetRot_Rot2; [| |lra|exact E3].
    + rewrite vscale_vscale. replace (n * / 10 * / n) with (/ 10) by (field; lra).
      unfold vscale, mv. cbn. f_equal; ring.
    + unfold unit. 
      assert (Q : dot (mv m (V (- cy) cx 0)) (mv m (V (- cy) cx 0)) = n * n).
      { unfold n. rewrite norm_sqr, dot_rot by exact RM. unfold dot. cbn. ring. }
      transitivity (/ n * / n * dot (mv m (V (- cy) cx 0)) (mv m (V (- cy) cx 0))); [unfold dot, vscale; cbn; ring|].
      rewrite Q. field. lra.
Qed.

Lemma process_lemma : forall k x data cx cy, rotation_matrix (ct_rot k) -> length data = 6%nat -> ct_last k = (cx, cy) ->
  let m := mm (fM (vectorToFrame x)) (ct_rot k) in
  (dot (lin data) (mv m (V 0 0 1)) <= 0 -> processStoredBottle k (Some x) data = None) /\
  (0 < dot (lin data) (mv m (V 0 0 1)) -> clear_centroid cx cy ->
     exists w, processStoredBottle k (Some x) data = Some w /\ steered m cx cy data w).
Proof.
  intros k x data cx cy RK L LC m.
  assert (RM : rotation_matrix m) by (apply rot_mm; [apply vectorToFrame_rot|exact RK]).
  do 7 (destruct data as [|? data]; try discriminate). unfold processStoredBottle. rewrite LC. fold m.
  cbn [vectorToFrame fp]. unfold lin at 1 2. cbn [nth].
  set (z := mv m (V 0 0 1)). split; intro H.
  - replace (Rleb _ 0) with true by (symmetry; apply Rleb_true; exact H). reflexivity.
  - intro C. replace (Rleb _ 0) with false by (symmetry; apply Rleb_false; exact H).
    eexists. split; [reflexivity|]. unfold frameToVector. cbn [fM fp]. rewrite steered_rotation by assumption.
    unfold steered. cbv zeta. fold z.
    split; [reflexivity|]. split; [unfold lin; cbn [nth]; reflexivity|].
    assert (A : forall p (u : vec), ang [vx p; vy p; vz p; vx u; vy u; vz u] = u) by (intros; destruct u; reflexivity).
    rewrite A. split.
    + unfold z. rewrite dot_rot by exact RM. unfold dot. cbn. ring.
    + unfold z. rewrite <- cross_rot by exact RM. unfold cross, mv, vadd, vscale. cbn. f_equal; field.
Qed.
