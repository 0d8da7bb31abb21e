From Coq Require Import Reals Lra Psatz List Bool String ZArith Lia.
From Verif Require Import Kdl KdlFacts KdlRot KdlRotFacts KinRep KdlSolver KdlSolverFacts Vocab Ft Stream StreamSpec StreamFacts StreamFacts2 StreamFacts3 StreamFacts4 StreamFacts5.
Import ListNotations.
Open Scope R_scope.
Local Notation S := Datatypes.S.
Local Notation length := List.length.

Ltac decide_r :=
  repeat match goal with
  | |- context [Reqb ?a ?b] =>
      first [replace (Reqb a b) with true by (symmetry; apply Reqb_true; lra) | replace (Reqb a b) with false by (symmetry; apply Reqb_false; lra)]
  | |- context [Rltb ?a ?b] =>
      first [replace (Rltb a b) with true by (symmetry; apply Rltb_true; lra) | replace (Rltb a b) with false by (symmetry; apply Rltb_false; lra)]
  | |- context [Rleb ?a ?b] =>
      first [replace (Rleb a b) with true by (symmetry; apply Rleb_true; lra) | replace (Rleb a b) with false by (symmetry; apply Rleb_false; lra)]
  end.

(** * Witnesses *)
Definition ok_env : init_env := InitEnv true true true (Some [1; 0; 0; 0; 0; 0]).
Definition no_centroid : centroid := Centroid mid 0 (0, 0) 0.
Definition spnav0 (pose : bool) (names : option (list string)) (cur : list R) : spnav :=
  Spnav pose 1 (configureFixedAxes names) zeros6 cur false false VOCAB_CC_ACTUATOR_NONE.
(* SpaceNavigator, scaling 1, alerts at 50 and 10 *)
Definition sp_twist0 (names : option (list string)) : sdc := configured_sdc (DSpnav (spnav0 false names [])) 1 true 50 10 false false no_centroid.
Definition read_at (t : R) (r : list R) (p : option (list R)) : u_in := UIn t r p None 0 None.

Lemma sp_twist0_controller : forall names, spnav_controller false 1 names ok_env 1 true 50 10 false no_centroid (sp_twist0 names).
Proof. intro names. eexists; eexists. split; [reflexivity|reflexivity]. Qed.

Definition push_x : list R := [1; 0; 0; 0; 0; 0].
Lemma first_push : exists v c, update (sp_twist0 None) (read_at 1 push_x None) = Some ([STwist v], c) /\ nonzero v /\ c = set_dev (sp_twist0 None) (c_dev c) false.
Proof.
  unfold update, sp_twist0, configured_sdc, read_at, push_x. cbn. unfold base_transform. cbn. decide_r. cbn. decide_r. cbn.
  eexists; eexists. split; [reflexivity|]. split; [apply Exists_cons_hd; lra|reflexivity].
Qed.

(** a reading of the wrong size sends nothing, whatever the device *)
Lemma refused_lemma : forall c i, acquire (c_dev c) (u_reading i) = None -> update c i = Some ([], c).
Proof. intros c i H. unfold update. rewrite H. reflexivity. Qed.
Lemma refused_many : forall c is, Forall (fun i => acquire (c_dev c) (u_reading i) = None) is -> updates c is = Some ([], c).
Proof. intros c is H. induction H as [|i is H _ IH]; [reflexivity|]. cbn [updates]. rewrite refused_lemma by exact H. rewrite IH. reflexivity. Qed.

Lemma lost_lemma : exists c0 is cs c, spnav_controller false 1 None ok_env 1 true 50 10 false no_centroid c0 /\ updates c0 is = Some (cs, c) /\ moving cs /\
  forall js, Forall (fun j => u_reading j = []) js -> updates c js = Some ([], c).
Proof.
  destruct first_push as (v & c & U & NZ & EC).
  exists (sp_twist0 None), [read_at 1 push_x None], [STwist v], c. split; [apply sp_twist0_controller|]. split; [cbn [updates]; rewrite U; reflexivity|].
  split; [exact NZ|]. intros js H. apply refused_many.
  assert (exists d, c_dev c = DSpnav d) as (d & E).
  { destruct (update_acts (sp_twist0 None) _ _ _ _ eq_refl U) as (_ & _ & d' & D & _). exists d'. exact D. }
  rewrite E. eapply Forall_impl; [|exact H]. intros j Hj. cbn beta. rewrite Hj. reflexivity.
Qed.

(** the reading of the obstacle is forgotten when no new one has arrived *)
Lemma forgotten_lemma : exists c0 i j cs1 c1 cs2 c2, spnav_controller false 1 None ok_env 1 true 50 10 false no_centroid c0 /\
  near 50 (u_prox i) /\ u_prox j = None /\ update c0 i = Some (cs1, c1) /\ update c1 j = Some (cs2, c2) /\ moving (cs1 ++ cs2).
Proof.
  exists (sp_twist0 None), (read_at 1 push_x (Some [100])), (read_at 2 push_x None).
  eexists; eexists; eexists; eexists. split; [apply sp_twist0_controller|].
  split; [exists [100]; split; [reflexivity|]; split; [discriminate|]; cbn; unfold Rmax; destruct (Rle_dec 100 0); lra|]. split; [reflexivity|].
  split.
  - unfold update, sp_twist0, configured_sdc, read_at, push_x. cbn. unfold proximity, alert_level. cbn. decide_r. cbn. reflexivity.
  - split.
    + unfold update, read_at, push_x. cbn. unfold base_transform. cbn. decide_r. cbn. decide_r. cbn. reflexivity.
    + cbn. apply Exists_cons_hd. lra.
Qed.

(** a gripper that is closing is not stopped while there is an obstacle *)
Lemma gripping_lemma : exists c0 i j cs1 c1 cs2 c2, spnav_controller false 1 None ok_env 1 true 50 10 false no_centroid c0 /\
  u_reading i = [0; 0; 0; 0; 0; 0; 1; 0] /\ u_reading j = [0; 0; 0; 0; 0; 0; 0; 0] /\
  update c0 i = Some (cs1, c1) /\ acts cs1 = [VOCAB_CC_ACTUATOR_CLOSE_GRIPPER] /\ update c1 j = Some (cs2, c2) /\ acts cs2 = [] /\
  forall k, exists cs, updates c1 (repeat j k) = Some (cs, if k then c1 else c2) /\ acts cs = [].
Proof.
  exists (sp_twist0 None), (read_at 1 [0; 0; 0; 0; 0; 0; 1; 0] None), (read_at 2 [0; 0; 0; 0; 0; 0; 0; 0] (Some [100])).
  eexists; eexists; eexists; eexists. split; [apply sp_twist0_controller|]. split; [reflexivity|]. split; [reflexivity|].
  split.
  { unfold update, sp_twist0, configured_sdc, read_at. cbn. unfold base_transform. cbn. decide_r. cbn. reflexivity. }
  split; [reflexivity|]. split.
  { unfold update, read_at. cbn. unfold proximity, alert_level. cbn. decide_r. cbn. reflexivity. }
  split; [reflexivity|].
  assert (G : forall c k, (forall c', c' = c -> update c (read_at 2 [0; 0; 0; 0; 0; 0; 0; 0] (Some [100])) = Some ([], c)) ->
            updates c (repeat (read_at 2 [0; 0; 0; 0; 0; 0; 0; 0] (Some [100])) k) = Some ([], c)).
  { intros c k H. induction k as [|k IH]; [reflexivity|]. cbn [repeat updates]. rewrite (H c eq_refl), IH. reflexivity. }
  intros [|k]; [exists []; split; reflexivity|]. exists []. split; [|reflexivity]. cbn [repeat updates].
  match goal with |- context [update ?c ?i] => assert (E : update c i = Some ([], set_dev c (DSpnav (Spnav false 1 (configureFixedAxes None) zeros6 [] false false VOCAB_CC_ACTUATOR_CLOSE_GRIPPER)) true)) end.
  { unfold update, read_at. cbn. unfold proximity, alert_level. cbn. decide_r. cbn. reflexivity. }
  rewrite E. clear E. rewrite G; [unfold set_dev; cbn; decide_r; reflexivity|].
  intros _ _. unfold update, set_dev, read_at. cbn. unfold proximity, alert_level. cbn. decide_r. cbn. reflexivity.
Qed.

(** * The Wiimote *)
Definition wii0 (names : option (list string)) : sdc :=
  configured_sdc (DWii (Wii false 1 (configureFixedAxes names) (repeat 0 3) (repeat 0 5) W_NONE)) 1 true 50 10 false false no_centroid.
Lemma wii_lemma : exists ics d i cs' c' v, wii_initialize false 1 (configureFixedAxes (Some ["z"%string])) ok_env = (ics, Some d) /\
  update (configured_sdc (DWii d) 1 false 50 10 false false no_centroid) i = Some (cs', c') /\ twists cs' = [v] /\ nth 2 v 0 <> 0.
Proof.
  eexists; eexists; exists (read_at 1 [0; 0; 1; 0; 0] None). eexists; eexists; eexists. split; [reflexivity|]. split.
  - unfold update, configured_sdc, read_at. cbn. unfold wii_transform. cbn. decide_r. cbn. reflexivity.
  - split; [reflexivity|]. cbn. lra.
Qed.
Lemma wii_alert_lemma : exists ics d i j cs1 c1 cs2 c2 v w, wii_initialize false 1 (configureFixedAxes None) ok_env = (ics, Some d) /\
  u_prox i = None /\ near 10 (u_prox j) /\ ~ near 50 (u_prox j) /\ u_reading i = u_reading j /\
  update (configured_sdc (DWii d) 1 true 50 10 false false no_centroid) i = Some (cs1, c1) /\ twists cs1 = [v] /\
  update (configured_sdc (DWii d) 1 true 50 10 false false no_centroid) j = Some (cs2, c2) /\ twists cs2 = [w] /\ lin v = lin w /\ nonzero (lin_list v).
Proof.
  eexists; eexists; exists (read_at 1 [0; 0; 1; 0; 0] None), (read_at 1 [0; 0; 1; 0; 0] (Some [20])). eexists; eexists; eexists; eexists; eexists; eexists.
  split; [reflexivity|]. split; [reflexivity|].
  split; [exists [20]; split; [reflexivity|]; split; [discriminate|]; cbn; unfold Rmax; destruct (Rle_dec 20 0); lra|].
  split; [intros (l & E & _ & L); cbn in E; apply some_inj in E; subst l; cbn in L; revert L; unfold Rmax; destruct (Rle_dec 20 0); lra|].
  split; [reflexivity|]. split.
  - unfold update, configured_sdc, read_at. cbn. unfold wii_transform. cbn. decide_r. cbn. reflexivity.
  - split; [reflexivity|]. split.
    + unfold update, configured_sdc, read_at. cbn. unfold proximity, alert_level. cbn. decide_r. cbn. unfold wii_transform. cbn. decide_r. cbn. reflexivity.
    + split; [reflexivity|]. split; [reflexivity|]. unfold lin_list, lin. cbn. apply Exists_cons_tl, Exists_cons_tl, Exists_cons_hd. lra.
Qed.

(** * The centroid handler moves fixed axes *)
Lemma clear_one : clear_centroid 0 (-1).
Proof.
  right. assert (N : norm (V 0 (-1) 0) = 1).
  { unfold norm, dot. cbn. replace (0 * 0 + -1 * -1 + 0 * 0) with (1 * 1) by ring. apply sqrt_square. lra. }
  rewrite N. pose proof PI_RGT_0. pose proof PI2_1. unfold kdl_eps. split; [lra|]. split; [lra|].
  pose proof (SIN_bound 0). assert (B : 1 / 10 - (1 / 10) * (1 / 10) * (1 / 10) / 6 <= sin (1 / 10)).
  { pose proof (sin_bound (1 / 10) 0 ltac:(lra) ltac:(lra)) as [L _]. unfold sin_approx, sum_f_R0, sin_term in L. cbn in L. lra. }
  lra.
Qed.
Lemma centroid_fixed_lemma : exists ics d i cs' c' v,
  spnav_initialize false 1 (configureFixedAxes (Some ["rotx"%string])) ok_env = (ics, Some d) /\
  update (configured_sdc (DSpnav d) 1 false 50 10 false true (Centroid mid 1 (0, 0) 0)) i = Some (cs', c') /\ twists cs' = [v] /\ nth 3 v 0 <> 0.
Proof.
  set (i := UIn 1 [0; 0; 1; 0; 0; 0; 0; 0] None (Some [0; -1]) 1 (Some zeros6)).
  exists [SPreset VOCAB_CC_TWIST; SFrame BASE_FRAME], (spnav0 false (Some ["rotx"%string]) []), i.
  set (k := Centroid mid 1 (0, 0) 0).
  set (c := configured_sdc (DSpnav (spnav0 false (Some ["rotx"%string]) [])) 1 false 50 10 false true k).
  destruct (cent_inv_step 1 (Some ["rotx"%string]) 1 false 50 10 false k [] c i) as (cs' & c' & U & _).
  { lra. }
  { unfold cent_inv. cbn. repeat (split; [reflexivity|]). split; [constructor|]. eexists. repeat split; reflexivity. }
  set (v0 := [0; 0; 1; 0; 0; 0]).
  assert (SC : scaled (Some ["rotx"%string]) (1 * 1) (u_reading i) v0).
  { split; [reflexivity|]. intros j Hj. do 6 (destruct j as [|j]; [split; [intros [Z|[]]; (discriminate Z || reflexivity)|intros _; cbn; field]|]). lia. }
  assert (NH : ~ (false = true /\ near 50 (u_prox i))) by (intros [Z _]; discriminate).
  assert (I : spnav_initialize false 1 (configureFixedAxes (Some ["rotx"%string])) ok_env = ([SPreset VOCAB_CC_TWIST; SFrame BASE_FRAME], Some (spnav0 false (Some ["rotx"%string]) []))) by reflexivity.
  assert (NA : acts cs' = []).
  { destruct (gripper_lemma false 1 _ ok_env _ _ 1 false 50 10 false true k [] [] c i cs' c' I eq_refl U eq_refl NH) as (_ & _ & G).
    apply G; cbn; [lra|lra|left; reflexivity]. }
  assert (SL : slowdown false false 10 (u_prox i) 1) by (split; [intros (Z & _); discriminate|reflexivity]).
  assert (IF : in_force false 50 k [] i (0, -1)) by (left; exists 0, (-1); split; reflexivity).
  assert (RK : rotation_matrix (ct_rot k)) by apply rot_id.
  destruct (centroid_lemma 1 (Some ["rotx"%string]) ok_env _ _ 1 false 50 10 false k [] [] c i cs' c' 1 v0 0 (-1) zeros6
     I ltac:(lra) RK eq_refl U (or_intror eq_refl) NH NA SL SC IF eq_refl) as [G _].
  assert (FZ : fM (vectorToFrame zeros6) = mid) by (cbn; apply rot_of_zero).
  rewrite FZ in G. cbn [ct_rot k] in G.
  destruct G as (w & W & (LW & LI & DA & CA)).
  { unfold dot, lin, mv, mm, mid, v0. cbn. lra. }
  { apply clear_one. }
  exists cs', c', w. split; [reflexivity|]. split; [exact U|]. split; [exact W|].
  assert (Q : vy (cross (ang w) (mv (mm mid mid) (V 0 0 1))) = vy (vadd (vscale (0 / 10) (mv (mm mid mid) (V 1 0 0))) (vscale (-1 / 10) (mv (mm mid mid) (V 0 1 0))))) by (rewrite CA; reflexivity).
  unfold cross, ang, mv, mm, mid, vadd, vscale in Q. cbn in Q. intro Z. rewrite Z in Q. lra.
Qed.

(** * The Leap Motion sensor *)
Definition leap_names : option (list string) := Some ["rotx"%string].
Definition leap_first : list R := zeros6.
Definition leap0 : leap :=
  Leap false (configureFixedAxes leap_names) [0 * / 1000; 0 * / 1000; 0 * / 1000; 0; 0; 0] fid (fmul (vectorToFrame [1; 0; 0; 0; 0; 0]) fid)
    [0 * / 1000; 0 * / 1000; 0 * / 1000; 0; 0; 0] fid 0 false false false VOCAB_CC_ACTUATOR_NONE.
Definition leap_sdc0 : sdc := configured_sdc (DLeap leap0) 1 true 50 10 false false no_centroid.
Lemma leap_sdc0_controller : leap_controller false leap_names mid [1; 0; 0; 0; 0; 0] leap_first 1 true 50 10 false no_centroid leap_sdc0.
Proof.
  exists None, ok_env. eexists; eexists. split; [reflexivity|]. split; [reflexivity|]. split; [reflexivity|]. split; [apply rot_id|]. split; reflexivity.
Qed.

Lemma fmul_mid : forall a b c a' b' c', fmul (F mid (V a b c)) (F mid (V a' b' c')) = F mid (V (a' + a) (b' + b) (c' + c)).
Proof. intros. unfold fmul, mm, mv, mid, vadd. cbn. f_equal; f_equal; ring. Qed.
Lemma lp_target_x : forall k x, k <> 0 -> lp_target leap_names mid [1; 0; 0; 0; 0; 0] k leap_first [x; 0; 0; 0; 0; 0] = [1 + x / 1000 / k; 0; 0; 0; 0; 0].
Proof.
  intros k x Hk. unfold lp_target. cbv zeta. rewrite vectorToFrame_spec by reflexivity.
  replace (rot_of (ang [1; 0; 0; 0; 0; 0])) with mid by (symmetry; apply rot_of_zero).
  change (configureFixedAxes leap_names) with [false; false; false; true; false; false].
  unfold leap_first, zeros6, lin, vzero. cbn [nth repeat andb negb].
  replace (finv (F mid (V 0 0 0))) with (F mid (V 0 0 0)).
  2:{ unfold finv, mT, mid, mv, vneg. cbn. f_equal; f_equal; ring. }
  rewrite !fmul_mid. unfold frameToVector. cbn [fM fp vx vy vz]. rewrite GetRot_id. cbn [vx vy vz vzero].
  f_equal; [field; exact Hk|]. f_equal; [field; exact Hk|]. f_equal. field; exact Hk.
Qed.

Lemma two_poses : forall a b, nonzero [a; 0; 0; 0; 0; 0] -> nonzero [b; 0; 0; 0; 0; 0] ->
  twistToVector (frame_diff_dt (vectorToFrame [a; 0; 0; 0; 0; 0]) (vectorToFrame [b; 0; 0; 0; 0; 0]) 1) = [b - a; 0; 0; 0; 0; 0].
Proof.
  intros a b _ _. rewrite !vectorToFrame_spec by reflexivity. cbn [ang nth].
  replace (rot_of (ang [a; 0; 0; 0; 0; 0])) with mid by (symmetry; apply rot_of_zero).
  replace (rot_of (ang [b; 0; 0; 0; 0; 0])) with mid by (symmetry; apply rot_of_zero).
  unfold frame_diff_dt, frame_diff. cbn [fM fp]. rewrite rot_diff_same by apply rot_id.
  unfold twistToVector, lin, vscale, vsub, vzero. cbn [nth vx vy vz t_vel t_rot].
  f_equal; [field|]. f_equal; [field|]. f_equal; [field|]. f_equal; [field|]. f_equal; [field|]. f_equal. field.
Qed.

(* readings of six values at x mm: the second of two readings one second apart sends the difference *)
Lemma leap_two : forall x x' p p' f f', ~ (true = true /\ near 50 p) -> ~ (true = true /\ near 50 p') ->
  slowdown true false 10 p f -> slowdown true false 10 p' f' -> 0 <= x -> 0 <= x' -> f = 1 \/ f = 2 -> f' = 1 \/ f' = 2 ->
  exists c1 c2, updates leap_sdc0 [read_at 1 [x; 0; 0; 0; 0; 0] p] = Some ([], c1) /\
    update c1 (read_at 2 [x'; 0; 0; 0; 0; 0] p') = Some ([STwist [x' / 1000 / f' - x / 1000 / f; 0; 0; 0; 0; 0]], c2) /\
    leap_inv false leap_names mid [1; 0; 0; 0; 0; 0] leap_first 1 true 50 10 false c2 /\
    (exists d, c_dev c2 = DLeap d /\ lp_has d = false).
Proof.
  intros x x' p p' f f' N1 N2 SL SL' X X' F F'.
  assert (SU : forall b u v, slowdown true false 10 b u -> slowdown true false 10 b v -> u = v).
  { intros b u v [S1 S2] [T1 T2]. destruct (near_dec 10 b) as [N|N]; [rewrite S1, T1 by auto; reflexivity|rewrite S2, T2 by tauto; reflexivity]. }
  assert (Hs : 1 <> 0) by lra.
  pose proof (leap_start _ _ _ _ _ _ _ _ _ _ _ _ leap_sdc0_controller) as IV0.
  destruct (leap_update _ _ _ _ _ _ _ _ _ _ _ (read_at 1 [x; 0; 0; 0; 0; 0] p) Hs IV0 (or_introl eq_refl) N1) as (d & f1 & a & d' & DD & SLd & LU). cbv zeta in LU.
  cbn [u_prox read_at] in SLd. rewrite (SU _ _ _ SLd SL) in LU. clear SLd f1.
  destruct LU as (E0 & EP & ET & E1 & E2 & E3 & E4 & E5 & E6 & E7 & _ & E).
  assert (Q : forall p q, DLeap p = DLeap q -> p = q) by (intros; congruence).
  assert (d = leap0) by (symmetry; apply Q; exact DD). subst d.
  destruct (E7 eq_refl eq_refl) as [EA EH].
  rewrite EA in E. cbn [u_reading read_at u_time] in E, E0.
  rewrite lp_target_x in E, E0 by lra.
  assert (P1 : 0 <= x / 1000 / (1 * f)) by (destruct F; subst f; lra).
  assert (NZ1 : existsb (fun x0 => negb (Reqb x0 0)) [1 + x / 1000 / (1 * f); 0; 0; 0; 0; 0] = true) by (apply base_valid_nonzero, Exists_cons_hd; lra).
  rewrite NZ1 in E. change (Z.eqb VOCAB_CC_ACTUATOR_NONE VOCAB_CC_ACTUATOR_NONE && true)%bool with true in E. cbv iota in E.
  unfold leap_send in E. rewrite E1, ET, E0 in E. cbv zeta in E. change (lp_time leap0) with 0 in E.
  replace (Reqb 0 0) with true in E by (symmetry; apply Reqb_true; reflexivity). cbn [negb] in E.
  eexists. 
  pose proof (leap_inv_step _ _ _ _ _ _ _ _ _ _ _ _ _ _ Hs IV0 E) as IV1.
  match type of E with _ = Some (_, ?c) => set (c1 := c) in * end.
  destruct (leap_update _ _ _ _ _ _ _ _ _ _ _ (read_at 2 [x'; 0; 0; 0; 0; 0] p') Hs IV1 (or_introl eq_refl) N2) as (d2 & f2 & b & d2' & DD2 & SLd & LU). cbv zeta in LU.
  cbn [u_prox read_at] in SLd. rewrite (SU _ _ _ SLd SL') in LU. clear SLd f2.
  destruct LU as (G0 & GP & GT & G1 & G2 & G3 & G4 & G5 & G6 & G7 & _ & G).
  apply Q in DD2.
  destruct (G7 eq_refl) as [GA GH]; [rewrite <- DD2; exact EH|].
  rewrite GA in G. cbn [u_reading read_at u_time] in G, G0.
  rewrite lp_target_x in G, G0 by lra.
  assert (P2 : 0 <= x' / 1000 / (1 * f')) by (destruct F'; subst f'; lra).
  assert (NZ2 : existsb (fun x0 => negb (Reqb x0 0)) [1 + x' / 1000 / (1 * f'); 0; 0; 0; 0; 0] = true) by (apply base_valid_nonzero, Exists_cons_hd; lra).
  rewrite NZ2 in G. change (Z.eqb VOCAB_CC_ACTUATOR_NONE VOCAB_CC_ACTUATOR_NONE && true)%bool with true in G. cbv iota in G.
  unfold leap_send in G. rewrite G1, GT, GP, G0 in G. cbv zeta in G. rewrite <- DD2 in G. cbn [lp_time lp_prev] in G.
  replace (Reqb 1 0) with false in G by (symmetry; apply Reqb_false; lra). replace (2 - 1) with 1 in G by ring.
  replace (Reqb 1 0) with false in G by (symmetry; apply Reqb_false; lra). cbn [negb] in G.
  rewrite two_poses in G by (apply Exists_cons_hd; lra).
  replace (1 + x' / 1000 / (1 * f') - (1 + x / 1000 / (1 * f))) with (x' / 1000 / f' - x / 1000 / f) in G by (destruct F, F'; subst f f'; lra).
  eexists. split; [cbn [updates]; rewrite E; reflexivity|]. split; [exact G|].
  split; [exact (leap_inv_step _ _ _ _ _ _ _ _ _ _ _ _ _ _ Hs IV1 G)|]. eexists. split; [reflexivity|]. cbn. exact GH.
Qed.

Lemma near_one : forall t x, 0 <= x -> (near t (Some [x]) <-> IZR t < x).
Proof.
  intros t x Hx. unfold near. split.
  - intros (l & E & _ & L). apply some_inj in E. subst l. cbn in L. rewrite Rmax_left in L by lra. exact L.
  - intro L. exists [x]. split; [reflexivity|]. split; [discriminate|]. cbn. rewrite Rmax_left by lra. exact L.
Qed.
Lemma near_none : forall t, ~ near t None.
Proof. intros t (l & E & _). discriminate. Qed.
Lemma slow_none : slowdown true false 10 None 1.
Proof. split; [intros (_ & _ & N); elim (near_none _ N)|reflexivity]. Qed.

Lemma leap_moves : exists c1 c, updates leap_sdc0 [read_at 1 [0; 0; 0; 0; 0; 0] None] = Some ([], c1) /\
  updates leap_sdc0 [read_at 1 [0; 0; 0; 0; 0; 0] None; read_at 2 [1000; 0; 0; 0; 0; 0] None] = Some ([STwist [1; 0; 0; 0; 0; 0]], c) /\
  leap_inv false leap_names mid [1; 0; 0; 0; 0; 0] leap_first 1 true 50 10 false c.
Proof.
  destruct (leap_two 0 1000 None None 1 1) as (c1 & c2 & U1 & U2 & IV & _); try (intros [_ N]; elim (near_none _ N)); try apply slow_none; try lra.
  exists c1, c2. split; [exact U1|]. split; [|exact IV].
  change [read_at 1 [0; 0; 0; 0; 0; 0] None; read_at 2 [1000; 0; 0; 0; 0; 0] None] with ([read_at 1 [0; 0; 0; 0; 0; 0] None] ++ [read_at 2 [1000; 0; 0; 0; 0; 0] None]).
  rewrite updates_app, U1. cbn [updates]. rewrite U2. cbn [app]. replace (1000 / 1000 / 1 - 0 / 1000 / 1) with 1 by lra. reflexivity.
Qed.

Lemma leap_grab_lemma : exists c0 is cs c i c', leap_controller false leap_names mid [1; 0; 0; 0; 0; 0] leap_first 1 true 50 10 false no_centroid c0 /\
  updates c0 is = Some (cs, c) /\ moving cs /\ u_reading i = [1000; 0; 0; 0; 0; 0; 1; 0] /\ u_prox i = None /\
  update c i = Some ([SAct VOCAB_CC_ACTUATOR_CLOSE_GRIPPER], c').
Proof.
  destruct leap_moves as (c1 & c & _ & U & IV).
  assert (Hs : 1 <> 0) by lra.
  assert (NH : ~ (true = true /\ near 50 (u_prox (read_at 3 [1000; 0; 0; 0; 0; 0; 1; 0] None)))) by (intros [_ N]; elim (near_none _ N)).
  destruct (leap_update _ _ _ _ _ _ _ _ _ _ _ (read_at 3 [1000; 0; 0; 0; 0; 0; 1; 0] None) Hs IV (or_intror eq_refl) NH) as (d & f & a & d' & DD & _ & LU). cbv zeta in LU.
  destruct LU as (_ & _ & _ & _ & _ & _ & _ & _ & _ & _ & E8 & E).
  specialize (E8 eq_refl). cbn [u_reading read_at nth] in E8. replace (Reqb 1 1) with true in E8 by (symmetry; apply Reqb_true; reflexivity). cbn [next_actuator] in E8.
  rewrite E8 in E. change (Z.eqb VOCAB_CC_ACTUATOR_CLOSE_GRIPPER VOCAB_CC_ACTUATOR_NONE) with false in E. cbn [andb negb] in E.
  eexists; eexists; eexists; eexists; eexists; eexists. split; [apply leap_sdc0_controller|]. split; [exact U|]. split; [apply Exists_cons_hd; lra|].
  split; [|split; [|exact E]]; reflexivity.
Qed.

Lemma leap_obstacle_lemma : exists c0 is cs c i c', leap_controller false leap_names mid [1; 0; 0; 0; 0; 0] leap_first 1 true 50 10 false no_centroid c0 /\
  updates c0 is = Some (cs, c) /\ moving cs /\ acquired (u_reading i) /\ near 50 (u_prox i) /\ update c i = Some ([], c').
Proof.
  destruct leap_moves as (c1 & c & _ & U & IV).
  destruct IV as (H1 & H2 & H3 & H4 & H5 & H6 & AF & d & D1 & _).
  assert (N : near 50 (Some [100])) by (apply near_one; lra).
  destruct (leap_high c d (read_at 3 [1000; 0; 0; 0; 0; 0] (Some [100])) D1 (or_introl eq_refl)) as (c' & E).
  { apply proximity_high. rewrite H2, H3. split; [reflexivity|exact N]. }
  eexists; eexists; eexists; eexists; eexists; eexists. split; [apply leap_sdc0_controller|]. split; [exact U|]. split; [apply Exists_cons_hd; lra|].
  split; [|split; [|exact E]]; [left; reflexivity|exact N].
Qed.

Lemma leap_alert_lemma : exists c0 i j cs1 c1 cs2 c2 v, leap_controller false leap_names mid [1; 0; 0; 0; 0; 0] leap_first 1 true 50 10 false no_centroid c0 /\
  u_reading i = u_reading j /\ u_prox i = None /\ near 10 (u_prox j) /\ ~ near 50 (u_prox j) /\
  update c0 i = Some (cs1, c1) /\ update c1 j = Some (cs2, c2) /\ twists cs2 = [v] /\ nonzero v.
Proof.
  assert (N10 : near 10 (Some [20])) by (apply near_one; lra).
  assert (N50 : ~ near 50 (Some [20])) by (rewrite near_one by lra; lra).
  assert (SL : slowdown true false 10 (Some [20]) 2) by (split; [reflexivity|intro N; exfalso; apply N; auto]).
  destruct (leap_two 1000 1000 None (Some [20]) 1 2) as (c1 & c2 & U1 & U2 & _); try (intros [_ N]; elim (near_none _ N)); try apply slow_none; try lra; try tauto.
  assert (U1' : exists cs1, update leap_sdc0 (read_at 1 [1000; 0; 0; 0; 0; 0] None) = Some (cs1, c1)).
  { cbn [updates] in U1. destruct (update _ _) as [[cs1 c1']|]; [|discriminate]. apply some_inj, pair_inj in U1. destruct U1 as [_ ->]. eexists. reflexivity. }
  destruct U1' as (cs1 & U1').
  eexists; eexists; eexists; eexists; eexists; eexists; eexists; eexists. split; [apply leap_sdc0_controller|].
  split; [|split; [|split; [|split; [|split; [exact U1'|split; [exact U2|split; [reflexivity|apply Exists_cons_hd; lra]]]]]]]; try reflexivity; assumption.
Qed.

(** * A near obstacle halves the speed of the SpaceNavigator *)
Lemma half_lemma : forall gain names n scaling prox high low nolow k c0 is cs c i j cs1 c1 cs2 c2 v w,
  scaling <> 0 -> spnav_controller false gain names n scaling prox high low nolow k c0 -> updates c0 is = Some (cs, c) ->
  acquired (u_reading i) -> u_reading j = u_reading i -> prox = true -> nolow = false ->
  ~ near low (u_prox i) -> ~ near high (u_prox i) -> near low (u_prox j) -> ~ near high (u_prox j) ->
  update c i = Some (cs1, c1) -> acts cs1 = [] -> twists cs1 = [v] -> nonzero v ->
  update c j = Some (cs2, c2) -> acts cs2 = [] -> twists cs2 = [w] ->
  forall a, nth a w 0 = nth a v 0 / 2.
Proof.
  intros gain names n scaling prox high low nolow k c0 is cs c i j cs1 c1 cs2 c2 v w Hs HC HU Ai RJ P NL LI HI LJ HJ U1 A1 T1 NV U2 A2 T2 a.
  destruct (velocity_lemma _ _ _ _ _ _ _ _ _ _ _ _ _ i Hs HC HU Ai) as (cs1' & c1' & U1' & B1 & B2 & B3).
  rewrite U1 in U1'. apply some_inj, pair_inj in U1'. destruct U1' as [<- <-].
  assert (Aj : acquired (u_reading j)) by (rewrite RJ; exact Ai).
  destruct (velocity_lemma _ _ _ _ _ _ _ _ _ _ _ _ _ j Hs HC HU Aj) as (cs2' & c2' & U2' & D1 & _ & _).
  rewrite U2 in U2'. apply some_inj, pair_inj in U2'. destruct U2' as [<- <-].
  assert (PU : pushed names (u_reading i) \/ ~ pushed names (u_reading i)).
  { destruct (sp_twist_scaled names 1 (u_reading i) Ai) as [L H]. pose proof (scaled_nonzero names 1 (u_reading i) _ ltac:(lra) (conj L H)) as Z.
    rewrite <- Z, <- base_valid_nonzero. destruct (existsb _ _); [left; reflexivity|right; discriminate]. }
  assert (NHi : ~ (prox = true /\ near high (u_prox i))) by tauto. assert (NHj : ~ (prox = true /\ near high (u_prox j))) by tauto.
  destruct PU as [PU|PU].
  2:{ exfalso. assert (NG : ~ (acts cs1 = [] /\ ~ (prox = true /\ near high (u_prox i)) /\ pushed names (u_reading i))) by tauto.
      assert (M : moving cs \/ ~ moving cs).
      { unfold moving. rewrite <- base_valid_nonzero. destruct (existsb _ _); [left; reflexivity|right; discriminate]. }
      destruct M as [M|M]; [rewrite (B2 NG M) in T1|rewrite (B3 NG M) in T1]; [|discriminate].
      assert (v = zeros6) by congruence. subst v. exact (nonzero_zeros NV). }
  destruct (B1 (conj A1 (conj NHi PU))) as (f & v' & SL & SC & E). assert (v' = v) by congruence. subst v'.
  rewrite <- RJ in PU. destruct (D1 (conj A2 (conj NHj PU))) as (g & w' & SL' & SC' & E'). assert (w' = w) by congruence. subst w'.
  assert (f = 1) by (apply SL; tauto). assert (g = 2) by (apply SL'; auto). subst f g. rewrite RJ in SC'.
  destruct SC as [Lv Sv], SC' as [Lw Sw].
  destruct (Nat.lt_ge_cases a 6) as [LA|LA].
  - destruct (Sv a LA) as [V1 V2], (Sw a LA) as [W1 W2]. destruct (nth a (configureFixedAxes names) false) eqn:F.
    + apply fixed_nth in F; [|exact LA]. rewrite V1, W1 by exact F. lra.
    + assert (NF : ~ is_fixed names a) by (intro Z; apply fixed_nth in Z; [congruence|exact LA]). rewrite V2, W2 by exact NF. field. exact Hs.
  - rewrite !nth_overflow by lia. lra.
Qed.
