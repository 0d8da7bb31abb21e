From Coq Require Import Reals Lra Psatz List Bool String ZArith Lia.
From Verif Require Import Kdl KdlFacts KdlRot KdlRotFacts KinRep Vocab Ft Stream StreamSpec StreamFacts StreamFacts2 StreamFacts3.
Import ListNotations.
Open Scope R_scope.
Local Notation S := Datatypes.S.
Local Notation length := List.length.

(** * The centroid handler inside update *)
Lemma seen_fun : forall prox high k is c t, seen prox high k is c t -> forall c' t', seen prox high k is c' t' -> c = c' /\ t = t'.
Proof.
  intros prox high k is c t H. induction H as [|is i x y L B|is i c t N H IH]; intros c' t' H'.
  - inversion H' as [E|is' i' x' y' L' B' E|is' i' c1 t1 N' H1 E]; [auto| |]; symmetry in E; apply app_cons_not_nil in E || (destruct is'; discriminate); contradiction.
  - inversion H' as [E|is' i' x' y' L' B' E|is' i' c1 t1 N' H1 E].
    + destruct is; discriminate.
    + apply app_inj_tail in E. destruct E as [-> ->]. rewrite B in B'. split; congruence.
    + apply app_inj_tail in E. destruct E as [-> ->]. destruct N' as [N'|N']; [contradiction|]. elim (N' x y B).
  - inversion H' as [E|is' i' x' y' L' B' E|is' i' c1 t1 N' H1 E].
    + destruct is; discriminate.
    + apply app_inj_tail in E. destruct E as [-> ->]. destruct N as [N|N]; [contradiction|]. elim (N x' y' B').
    + apply app_inj_tail in E. destruct E as [-> ->]. apply IH. exact H1.
Qed.

Lemma scaled_unique : forall names k r v w, scaled names k r v -> scaled names k r w -> v = w.
Proof.
  intros names k r v w [L1 H1] [L2 H2]. apply nth_ext with (d := 0) (d' := 0); [congruence|]. intros i Hi. rewrite L1 in Hi.
  destruct (H1 i Hi) as [A1 B1]. destruct (H2 i Hi) as [A2 B2].
  destruct (nth i (configureFixedAxes names) false) eqn:E.
  - apply fixed_nth in E; [|exact Hi]. rewrite A1, A2 by exact E. reflexivity.
  - assert (F : ~ is_fixed names i) by (intro F; apply fixed_nth in F; [congruence|exact Hi]). rewrite B1, B2 by exact F. reflexivity.
Qed.

Lemma update_spnav_centroid : forall c d i, c_dev c = DSpnav d -> sp_pose d = false -> c_cent c = true -> c_scaling c <> 0 ->
  acquired (u_reading i) ->
  (proximity c (u_prox i) = HighAlert -> exists d', sp_pose d' = false /\ sp_gain d' = sp_gain d /\ sp_fixed d' = sp_fixed d /\
       update c i = Some (if c_stopped c then [] else [STwist zeros6], set_dev c (DSpnav d') true)) /\
  (proximity c (u_prox i) <> HighAlert -> exists d' a st,
       let v := sp_twist (sp_fixed d) (c_scaling c * factor c (u_prox i)) (u_reading i) in
       let '(ok, k) := acceptBottle (c_centroid c) (u_bottle i) (u_now i) in
       let v' := if ok then match processStoredBottle k (u_stat i) v with Some w => w | None => v end else v in
       let ac := if Z.eqb a VOCAB_CC_ACTUATOR_NONE then [] else [SAct a] in
       sp_pose d' = false /\ sp_gain d' = sp_gain d /\ sp_fixed d' = sp_fixed d /\
       update c i = Some (if (Z.eqb a VOCAB_CC_ACTUATOR_NONE && existsb (fun x => negb (Reqb x 0)) v')%bool then [STwist v']
                          else ac ++ (if c_stopped c then [] else [STwist zeros6]), set_dev (set_centroid c k) (DSpnav d') st)).
Proof.
  intros c d i Hd Hp Hc Hs Ha.
  destruct (spnav_acquired d (u_reading i) Ha) as (cl & op & Q & _ & _).
  unfold update. rewrite Hd. cbn [acquire]. rewrite Q. cbn [option_map].
  split; intro P.
  - rewrite P. exists (Spnav false (sp_gain d) (sp_fixed d) (firstn 6 (u_reading i)) (sp_cur d) cl op (sp_act d)).
    repeat (split; [reflexivity|]). cbn [stop_motion spnav_stop sp_pose]. unfold spnav_stop. cbn [sp_pose]. rewrite Hp. reflexivity.
  - set (a := next_actuator cl op (sp_act d)).
    destruct (acceptBottle (c_centroid c) (u_bottle i) (u_now i)) as [ok k] eqn:AB.
    set (v := sp_twist (sp_fixed d) (c_scaling c * factor c (u_prox i)) (u_reading i)).
    set (v' := if ok then match processStoredBottle k (u_stat i) v with Some w => w | None => v end else v).
    set (va := (Z.eqb a VOCAB_CC_ACTUATOR_NONE && existsb (fun x => negb (Reqb x 0)) v')%bool).
    exists (Spnav false (sp_gain d) (sp_fixed d) v' (sp_cur d) cl op a), a, (negb va). cbv zeta.
    repeat (split; [reflexivity|]). fold v'. fold va.
    assert (KN : forall X (t : alert -> X), True) by trivial.
    assert (G : forall s, s <> 0 -> s = c_scaling c * factor c (u_prox i) ->
     (let '(a, d0) := actuator (DSpnav (Spnav (sp_pose d) (sp_gain d) (sp_fixed d) (firstn 6 (u_reading i)) (sp_cur d) cl op (sp_act d))) in
       let acts := if negb (Z.eqb a VOCAB_CC_ACTUATOR_NONE) then [SAct a] else [] in
       match transform d0 s with
       | Some d2 =>
            let '(d3, k) := apply_centroid c d2 i in
            let c := set_centroid c k in
            if valid d3 then
             match send d3 (u_time i) with
             | Some (m, d4) => Some (acts ++ m, set_dev c d4 false)
             | None => None
             end
            else Some (acts ++ (if c_stopped c then [] else stop_motion d3), set_dev c d3 true)
        | None => None
        end) = Some (if va then [STwist v'] else (if Z.eqb a VOCAB_CC_ACTUATOR_NONE then [] else [SAct a]) ++ (if c_stopped c then [] else [STwist zeros6]),
                     set_dev (set_centroid c k) (DSpnav (Spnav false (sp_gain d) (sp_fixed d) v' (sp_cur d) cl op a)) (negb va))).
    { intros s Hn Es. cbn [actuator spnav_actuator sp_close sp_open sp_act sp_pose sp_gain sp_fixed sp_data sp_cur transform]. fold a.
      unfold spnav_transform. cbn [sp_close sp_open sp_act sp_pose sp_gain sp_fixed sp_data sp_cur]. rewrite Hp. unfold base_transform.
      replace (Reqb s 0) with false by (symmetry; apply Reqb_false; exact Hn). cbn [andb option_map].
      replace (map _ _) with v by (unfold v, sp_twist; rewrite Es; reflexivity).
      unfold apply_centroid. rewrite Hc, AB. unfold spnav_set. cbn [sp_close sp_open sp_act sp_pose sp_gain sp_fixed sp_data sp_cur].
      assert (E : (if ok
           then match processStoredBottle k (u_stat i) v with
                | Some data => (DSpnav (Spnav false (sp_gain d) (sp_fixed d) data (sp_cur d) cl op a), k)
                | None => (DSpnav (Spnav false (sp_gain d) (sp_fixed d) v (sp_cur d) cl op a), k)
                end
           else (DSpnav (Spnav false (sp_gain d) (sp_fixed d) v (sp_cur d) cl op a), k)) = (DSpnav (Spnav false (sp_gain d) (sp_fixed d) v' (sp_cur d) cl op a), k)).
      { unfold v'. destruct ok; [|reflexivity]. destruct (processStoredBottle k (u_stat i) v); reflexivity. }
      rewrite E. clear E. cbn [valid]. unfold spnav_valid. cbn [sp_pose sp_act sp_data]. unfold base_valid, va.
      destruct (Z.eqb a VOCAB_CC_ACTUATOR_NONE); cbn [negb andb app].
      - destruct (existsb _ v'); cbn [send spnav_send sp_pose sp_data negb]; unfold spnav_send; cbn [sp_pose sp_data negb]; [reflexivity|].
        cbn [stop_motion]. unfold spnav_stop. cbn [sp_pose set_centroid c_stopped]. destruct (c_stopped c); reflexivity.
      - cbn [stop_motion]. unfold spnav_stop. cbn [sp_pose set_centroid c_stopped]. destruct (c_stopped c); reflexivity. }
    unfold factor in *. destruct (proximity c (u_prox i)); [| |congruence]; apply G; try lra.
Qed.

Definition cent_inv (gain : R) (fixed : list bool) (scaling : R) (prox : bool) (high low : Z) (nolow : bool) (k : centroid) (is : list u_in) (c : sdc) : Prop :=
  c_scaling c = scaling /\ c_prox c = prox /\ c_high c = high /\ c_low c = low /\ c_nolow c = nolow /\ c_cent c = true /\
  ct_rot (c_centroid c) = ct_rot k /\ ct_perm (c_centroid c) = ct_perm k /\
  seen prox high k is (ct_last (c_centroid c)) (ct_time (c_centroid c)) /\
  exists d, c_dev c = DSpnav d /\ sp_pose d = false /\ sp_gain d = gain /\ sp_fixed d = fixed.

Lemma accept_cases : forall k b now, exists ok k', acceptBottle k b now = (ok, k') /\ ct_rot k' = ct_rot k /\ ct_perm k' = ct_perm k /\
  ((exists x y, b = Some [x; y] /\ ok = true /\ ct_last k' = (x, y) /\ ct_time k' = now) \/
   ((forall x y, b <> Some [x; y]) /\ k' = k /\ (b = None -> ok = Rleb (now - ct_time k) (ct_perm k)) /\ (b <> None -> ok = false))).
Proof.
  intros k b now. unfold acceptBottle.
  destruct b as [[|x [|y [|z l]]]|]; eexists; eexists; (split; [reflexivity|]); (split; [reflexivity|]); (split; [reflexivity|]).
  3: left; exists x, y; auto.
  all: right; split; [intros; discriminate|]; split; [reflexivity|]; split; auto; intros; congruence.
Qed.

Lemma cent_inv_step : forall gain names scaling prox high low nolow k is c i,
  scaling <> 0 -> cent_inv gain (configureFixedAxes names) scaling prox high low nolow k is c ->
  exists cs' c', update c i = Some (cs', c') /\ cent_inv gain (configureFixedAxes names) scaling prox high low nolow k (is ++ [i]) c'.
Proof.
  intros gain names scaling prox high low nolow k is c i Hs (H1 & H2 & H3 & H4 & H5 & H6 & K1 & K2 & SE & d & D1 & D2 & D3 & D4).
  pose proof (proximity_high c (u_prox i)) as PH. rewrite H2, H3 in PH.
  destruct (acquired_dec (u_reading i)) as [Ha|Ha].
  2:{ exists [], c. split; [unfold update; rewrite D1; cbn [acquire]; rewrite spnav_refused by exact Ha; reflexivity|].
      repeat (split; [assumption|]). split; [|exists d; auto]. apply seen_before; [|exact SE]. left. intros [A _]. contradiction. }
  destruct (update_spnav_centroid c d i D1 D2 H6 ltac:(congruence) Ha) as [HI LO].
  assert (D : proximity c (u_prox i) = HighAlert \/ proximity c (u_prox i) <> HighAlert) by (destruct (proximity c (u_prox i)); [right|right|left]; congruence).
  destruct D as [D|D].
  - destruct (HI D) as (d' & E1 & E2 & E3 & U). eexists; eexists. split; [exact U|]. unfold cent_inv, set_dev. cbn.
    repeat (split; [assumption|]). split; [|exists d'; repeat split; congruence].
    apply seen_before; [|exact SE]. left. intros [_ A]. apply A, PH, D.
  - destruct (LO D) as (d' & a & st & LO'). cbv zeta in LO'.
    destruct (accept_cases (c_centroid c) (u_bottle i) (u_now i)) as (ok & k' & AB & R1 & R2 & CASES). rewrite AB in LO'.
    destruct LO' as (E1 & E2 & E3 & U). eexists; eexists. split; [exact U|]. unfold cent_inv, set_dev, set_centroid. cbn.
    repeat (split; [assumption|]). split; [congruence|]. split; [congruence|]. split; [|exists d'; repeat split; congruence].
    assert (LK : looks prox high i) by (split; [exact Ha|]; intro Z; apply D, PH, Z).
    destruct CASES as [(x & y & B & _ & -> & ->)|(B & -> & _)].
    + apply seen_now; assumption.
    + apply seen_before; [right; exact B|exact SE].
Qed.

Lemma cent_inv_history : forall gain names scaling prox high low nolow k c0 is cs c,
  scaling <> 0 -> cent_inv gain (configureFixedAxes names) scaling prox high low nolow k [] c0 -> updates c0 is = Some (cs, c) ->
  cent_inv gain (configureFixedAxes names) scaling prox high low nolow k is c.
Proof.
  intros gain names scaling prox high low nolow k c0 is cs c Hs H0. revert cs c. induction is as [|i is IH] using rev_ind; intros cs c U.
  - cbn in U. apply some_inj, pair_inj in U. destruct U as [_ <-]. exact H0.
  - rewrite updates_app in U. destruct (updates c0 is) as [[cs1 c1]|]; [|discriminate].
    specialize (IH cs1 c1 eq_refl). destruct (cent_inv_step _ _ _ _ _ _ _ _ _ _ i Hs IH) as (cs' & c' & U' & IV).
    cbn [updates] in U. rewrite U' in U. apply some_inj, pair_inj in U. destruct U as [_ <-]. exact IV.
Qed.

Lemma nonzero_of_lin : forall w, length w = 6%nat -> (exists i, (i < 6)%nat /\ nth i w 0 <> 0) -> nonzero w.
Proof. intros w L (i & Hi & N). unfold nonzero. apply Exists_exists. exists (nth i w 0). split; [apply nth_In; lia|exact N]. Qed.

Lemma centroid_lemma : forall gain names n ics d scaling prox high low nolow k is cs c i cs' c' f v cx cy x,
  spnav_initialize false gain (configureFixedAxes names) n = (ics, Some d) -> scaling <> 0 -> rotation_matrix (ct_rot k) ->
  updates (configured_sdc (DSpnav d) scaling prox high low nolow true k) is = Some (cs, c) -> update c i = Some (cs', c') ->
  acquired (u_reading i) -> ~ (prox = true /\ near high (u_prox i)) -> acts cs' = [] ->
  slowdown prox nolow low (u_prox i) f -> scaled names (scaling * f) (u_reading i) v ->
  in_force prox high k is i (cx, cy) -> u_stat i = Some x ->
  let m := mm (fM (vectorToFrame x)) (ct_rot k) in
  (0 < dot (lin v) (mv m (V 0 0 1)) -> clear_centroid cx cy -> exists w, twists cs' = [w] /\ steered m cx cy v w) /\
  (dot (lin v) (mv m (V 0 0 1)) <= 0 -> pushed names (u_reading i) -> twists cs' = [v]).
Proof.
  intros gain names n ics d0 scaling prox high low nolow k is cs c i cs' c' f v cx cy x I Hs RK HU U Ha NH NA SL SC IF ST m.
  assert (I0 : cent_inv gain (configureFixedAxes names) scaling prox high low nolow k [] (configured_sdc (DSpnav d0) scaling prox high low nolow true k)).
  { unfold cent_inv, configured_sdc. cbn. repeat (split; [reflexivity|]). split; [apply seen_none|].
    unfold spnav_initialize in I. cbn [andb] in I. cbv zeta in I. destruct (n_preset n && _)%bool; [discriminate|].
    destruct (negb (n_frame_ok n)); [discriminate|]. apply pair_inj in I. destruct I as [_ I]. apply some_inj in I. subst d0.
    eexists. repeat (split; [reflexivity|]). reflexivity. }
  destruct (cent_inv_history _ _ _ _ _ _ _ _ _ _ _ _ Hs I0 HU) as (H1 & H2 & H3 & H4 & H5 & H6 & K1 & K2 & SE & d & D1 & D2 & D3 & D4).
  pose proof (proximity_high c (u_prox i)) as PH. rewrite H2, H3 in PH.
  assert (D : proximity c (u_prox i) <> HighAlert) by (intro Z; apply NH, PH, Z).
  destruct (update_spnav_centroid c d i D1 D2 H6 ltac:(congruence) Ha) as [_ LO].
  destruct (LO D) as (d' & a & st & LO'). cbv zeta in LO'. clear LO.
  pose proof (factor_slow c (u_prox i) D) as SL'. rewrite H2, H4, H5 in SL'.
  assert (FE : factor c (u_prox i) = f).
  { unfold slowdown in SL, SL'. destruct SL as [A1 A2], SL' as [B1 B2].
    assert (Z : (prox = true /\ nolow = false /\ near low (u_prox i)) \/ ~ (prox = true /\ nolow = false /\ near low (u_prox i))).
    { destruct (near_dec low (u_prox i)) as [N|N]; [|right; tauto]. destruct prox; [|right; intros (Z & _); discriminate]. destruct nolow; [right; intros (_ & Z & _); discriminate|left; auto]. }
    destruct Z as [Z|Z]; [rewrite A1, B1 by exact Z|rewrite A2, B2 by exact Z]; reflexivity. }
  rewrite FE, D4, H1 in LO'.
  assert (V0 : sp_twist (configureFixedAxes names) (scaling * f) (u_reading i) = v) by (eapply scaled_unique; [apply sp_twist_scaled; exact Ha|exact SC]).
  rewrite V0 in LO'.
  destruct (accept_cases (c_centroid c) (u_bottle i) (u_now i)) as (ok & k' & AB & R1 & R2 & CASES). rewrite AB in LO'.
  destruct LO' as (E1 & E2 & E3 & U'). rewrite U' in U. apply some_inj, pair_inj in U. destruct U as [UC _]. clear U' E1 E2 E3.
  assert (OK : ok = true /\ ct_last k' = (cx, cy)).
  { destruct IF as [(x1 & y1 & B & EC)|(B & t & SN & TT)].
    - destruct CASES as [(x2 & y2 & B2 & O & L2 & _)|(B2 & _)]; [|elim (B2 x1 y1 B)].
      rewrite B in B2. split; [exact O|]. rewrite L2. congruence.
    - destruct CASES as [(x2 & y2 & B2 & _)|(_ & -> & O & _)]; [congruence|].
      destruct (seen_fun _ _ _ _ _ _ SE _ _ SN) as [C1 C2]. split; [|exact C1].
      rewrite (O B). apply Rleb_true. rewrite C2, K2. exact TT. }
  destruct OK as [-> CL]. rewrite ST in UC.
  assert (RK' : rotation_matrix (ct_rot k')) by (rewrite R1, K1; exact RK).
  destruct (process_lemma k' x v cx cy RK' (proj1 SC) CL) as [P1 P2].
  replace (mm (fM (vectorToFrame x)) (ct_rot k')) with m in P1, P2 by (unfold m; rewrite R1, K1; reflexivity).
  assert (AN : Z.eqb a VOCAB_CC_ACTUATOR_NONE = true).
  { destruct (Z.eqb a VOCAB_CC_ACTUATOR_NONE) eqn:EA; [reflexivity|]. cbn [andb] in UC. rewrite <- UC in NA. cbn in NA. discriminate. }
  rewrite AN in UC. cbn [andb] in UC.
  assert (SND : forall w, nonzero w -> (if existsb (fun x0 : R => negb (Reqb x0 0)) w then [STwist w] else ([] ++ (if c_stopped c then [] else [STwist zeros6]))) = cs' -> twists cs' = [w]).
  { intros w NZ E. apply base_valid_nonzero in NZ. rewrite NZ in E. rewrite <- E. reflexivity. }
  split.
  - intros LT CC. destruct (P2 LT CC) as (w & PR & STE). exists w. split; [|exact STE]. rewrite PR in UC. apply SND; [|exact UC].
    destruct STE as (LW & LI & _). apply nonzero_of_lin; [exact LW|].
    assert (RM : rotation_matrix m) by (apply rot_mm; [apply vectorToFrame_rot|exact RK]).
    set (z := mv m (V 0 0 1)) in *. set (q := dot (lin v) z) in *.
    assert (ZZ : dot z z = 1) by (unfold z; rewrite dot_rot by exact RM; unfold dot; cbn; ring).
    assert (DW : dot (lin w) z = q) by (rewrite LI; transitivity (q * dot z z); [unfold dot, vscale; cbn; ring|rewrite ZZ; ring]).
    destruct (Req_EM_T (nth 0 w 0) 0) as [W0|W0]; [|exists 0%nat; split; [lia|exact W0]].
    destruct (Req_EM_T (nth 1 w 0) 0) as [W1|W1]; [|exists 1%nat; split; [lia|exact W1]].
    destruct (Req_EM_T (nth 2 w 0) 0) as [W2|W2]; [|exists 2%nat; split; [lia|exact W2]].
    exfalso. unfold lin in DW. rewrite W0, W1, W2 in DW. unfold dot in DW. cbn in DW. lra.
  - intros LE PU. rewrite (P1 LE) in UC. apply SND; [|exact UC].
    assert (KN : scaling * f <> 0).
    { apply Rmult_integral_contrapositive. split; [exact Hs|]. rewrite <- FE. pose proof (factor_pos c (u_prox i)). lra. }
    apply (scaled_nonzero names _ _ _ KN SC). exact PU.
Qed.
