From Coq Require Import Reals Lra Psatz List Bool String ZArith Lia.
From Verif Require Import Kdl KdlFacts KdlRot KdlRotFacts KinRep KdlSolver Vocab Ft Stream StreamSpec StreamFacts StreamFacts2 StreamFacts6.
Import ListNotations.
Open Scope R_scope.
Local Notation S := Datatypes.S.
Local Notation length := List.length.

(** * The Wiimote in twist mode *)
Definition wii_inv (step scaling : R) (prox : bool) (high low : Z) (nolow : bool) (cs : list s_cmd) (c : sdc) : Prop :=
  c_scaling c = scaling /\ c_prox c = prox /\ c_high c = high /\ c_low c = low /\ c_nolow c = nolow /\ c_cent c = false /\
  (c_stopped c = true -> ~ moving cs) /\
  exists d, c_dev c = DWii d /\ w_pose d = false /\ w_step d = step.

Lemma wii_update : forall step scaling prox high low nolow cs c i, scaling <> 0 -> wii_inv step scaling prox high low nolow cs c ->
  exists cs' c', update c i = Some (cs', c') /\ wii_inv step scaling prox high low nolow (cs ++ cs') c' /\
    (length (u_reading i) <> 5%nat -> cs' = []) /\
    (length (u_reading i) = 5%nat -> prox = true /\ near high (u_prox i) -> c_stopped c' = true) /\
    (length (u_reading i) = 5%nat -> ~ (prox = true /\ near high (u_prox i)) ->
       let r j := nth j (u_reading i) 0 in
       (r 2%nat <> 1 -> r 3%nat <> 1 -> c_stopped c' = true) /\
       (r 2%nat = 1 \/ r 3%nat = 1 -> exists f, slowdown prox nolow low (u_prox i) f /\ wii_twist step (scaling * f) (u_reading i) cs')).
Proof.
  intros step scaling prox high low nolow cs c i Hs (H1 & H2 & H3 & H4 & H5 & H6 & ST & d & D1 & D2 & D3).
  destruct (Nat.eq_dec (length (u_reading i)) 5) as [L|L].
  2:{ exists [], c. rewrite app_nil_r. split; [|split; [|split; [reflexivity|split; intro; contradiction]]].
      - unfold update. rewrite D1. cbn [acquire]. unfold wii_acquire. replace (Nat.eqb (length (u_reading i)) 5) with false by (symmetry; apply Nat.eqb_neq; exact L). reflexivity.
      - repeat (split; [assumption|]). exists d. auto. }
  pose proof (proximity_high c (u_prox i)) as PH. rewrite H2, H3 in PH.
  set (d1 := Wii (w_pose d) (w_step d) (w_fixed d) (w_data d) (u_reading i) (w_mode d)).
  assert (AQ : acquire (c_dev c) (u_reading i) = Some (DWii d1)).
  { rewrite D1. cbn [acquire]. unfold wii_acquire. rewrite L. reflexivity. }
  assert (STOP : forall dd st', (st' = true) -> forall cs1, cs1 = (if c_stopped c then [] else stop_motion (DWii dd)) -> w_pose dd = false -> w_step dd = step ->
     wii_inv step scaling prox high low nolow (cs ++ cs1) (set_dev c (DWii dd) st')).
  { intros dd st' -> cs1 -> WP WS. unfold wii_inv, set_dev. cbn. repeat (split; [assumption|]). split; [|exists dd; auto].
    intros _. destruct (c_stopped c); [rewrite app_nil_r; auto|]. unfold wii_stop. rewrite WP. rewrite moving_app_twist. apply nonzero_zeros. }
  assert (D : proximity c (u_prox i) = HighAlert \/ proximity c (u_prox i) <> HighAlert) by (destruct (proximity c (u_prox i)); [right|right|left]; congruence).
  destruct D as [D|D].
  - exists (if c_stopped c then [] else stop_motion (DWii d1)), (set_dev c (DWii d1) true).
    split; [unfold update; rewrite AQ, D; reflexivity|]. split; [apply STOP; auto|]. split; [intro; contradiction|].
    split; [reflexivity|]. intros _ N. exfalso. apply N, PH, D.
  - pose proof (factor_slow c (u_prox i) D) as SL. rewrite H2, H4, H5 in SL.
    pose proof (factor_pos c (u_prox i)) as FP.
    assert (FE : match proximity c (u_prox i) with LowAlert => c_scaling c * 2 | _ => c_scaling c end = scaling * factor c (u_prox i)).
    { unfold factor. rewrite H1. destruct (proximity c (u_prox i)); ring. }
    set (f := factor c (u_prox i)) in *.
    assert (KN : scaling * f <> 0) by (apply Rmult_integral_contrapositive; split; [exact Hs|lra]).
    assert (UP : update c i = match wii_transform d1 (scaling * f) with
                  | Some d2 => if wii_valid d2 then Some (wii_send d2, set_dev c (DWii d2) false)
                               else Some (if c_stopped c then [] else stop_motion (DWii d2), set_dev c (DWii d2) true)
                  | None => None end).
    { assert (ES : set_centroid c (c_centroid c) = c) by (destruct c; reflexivity).
      unfold update. rewrite AQ. cbn [actuator transform].
      destruct (proximity c (u_prox i)); [| |congruence]; cbn [actuator transform]; rewrite FE;
      change (negb (Z.eqb VOCAB_CC_ACTUATOR_NONE VOCAB_CC_ACTUATOR_NONE)) with false; cbv iota;
      destruct (wii_transform d1 (scaling * f)) as [d2|]; cbn [option_map]; try reflexivity;
      unfold apply_centroid; rewrite H6; cbn [valid send]; rewrite ES; destruct (wii_valid d2); reflexivity. }
    unfold wii_transform in UP. cbn [w_buffer w_pose w_step w_fixed w_data d1] in UP. rewrite D2, D3 in UP.
    replace (Reqb (scaling * f) 0) with false in UP by (symmetry; apply Reqb_false; exact KN).
    set (r := fun j => nth j (u_reading i) 0) in *.
    change (nth 0 (u_reading i) 0) with (r 0%nat) in UP. change (nth 1 (u_reading i) 0) with (r 1%nat) in UP. change (nth 2 (u_reading i) 0) with (r 2%nat) in UP.
    change (nth 3 (u_reading i) 0) with (r 3%nat) in UP. change (nth 4 (u_reading i) 0) with (r 4%nat) in UP.
    assert (MOVE : forall dd cs1, w_pose dd = false -> w_step dd = step -> wii_inv step scaling prox high low nolow (cs ++ cs1) (set_dev c (DWii dd) false)).
    { intros dd cs1 WP WS. unfold wii_inv, set_dev. cbn. repeat (split; [assumption|]). split; [discriminate|exists dd; auto]. }
    destruct (Reqb (r 2%nat) 1) eqn:R2; destruct (Reqb (r 3%nat) 1) eqn:R3; cbn [andb wii_valid w_mode wii_send w_step w_pose w_data] in UP.
    + eexists; eexists. split; [exact UP|]. split; [apply MOVE; reflexivity|]. split; [intro; contradiction|]. split; [intros _ Z; exfalso; apply D, PH, Z|].
      intros _ _. cbv zeta. apply Reqb_true in R2, R3. split; [intro Z; contradiction|]. intros _. exists f. split; [exact SL|].
      exists 0. split; [auto|]. destruct (Reqb (r 4%nat) 1) eqn:R4; [apply Reqb_true in R4|apply Reqb_false in R4]; split; intro Z; try contradiction; reflexivity.
    + eexists; eexists. split; [exact UP|]. split; [apply MOVE; reflexivity|]. split; [intro; contradiction|]. split; [intros _ Z; exfalso; apply D, PH, Z|].
      intros _ _. cbv zeta. apply Reqb_true in R2. apply Reqb_false in R3. split; [intro Z; contradiction|]. intros _. exists f. split; [exact SL|].
      exists step. split; [auto|]. destruct (Reqb (r 4%nat) 1) eqn:R4; [apply Reqb_true in R4|apply Reqb_false in R4]; split; intro Z; try contradiction; reflexivity.
    + eexists; eexists. split; [exact UP|]. split; [apply MOVE; reflexivity|]. split; [intro; contradiction|]. split; [intros _ Z; exfalso; apply D, PH, Z|].
      intros _ _. cbv zeta. apply Reqb_false in R2. apply Reqb_true in R3. split; [intros _ Z; contradiction|]. intros _. exists f. split; [exact SL|].
      exists (- step). split; [auto|]. destruct (Reqb (r 4%nat) 1) eqn:R4; [apply Reqb_true in R4|apply Reqb_false in R4]; split; intro Z; try contradiction; reflexivity.
    + eexists; eexists. split; [exact UP|]. split; [apply STOP; reflexivity|]. split; [intro; contradiction|]. split; [intros _ Z; exfalso; apply D, PH, Z|].
      intros _ _. cbv zeta. apply Reqb_false in R2, R3. split; [reflexivity|]. intros [Z|Z]; contradiction.
Qed.

Lemma wii_history : forall step names n ics d scaling prox high low nolow k is,
  wii_initialize false step (configureFixedAxes names) n = (ics, Some d) -> scaling <> 0 ->
  exists cs c, updates (configured_sdc (DWii d) scaling prox high low nolow false k) is = Some (cs, c) /\
  forall i, exists cs' c', update c i = Some (cs', c') /\
    (length (u_reading i) = 5%nat ->
       let r j := nth j (u_reading i) 0 in
       let blocked := prox = true /\ near high (u_prox i) in
       (blocked \/ (r 2%nat <> 1 /\ r 3%nat <> 1) -> ~ moving (cs ++ cs')) /\
       (~ blocked -> r 2%nat = 1 \/ r 3%nat = 1 -> exists f, slowdown prox nolow low (u_prox i) f /\ wii_twist step (scaling * f) (u_reading i) cs')).
Proof.
  intros step names n ics d scaling prox high low nolow k is I Hs.
  assert (I0 : wii_inv step scaling prox high low nolow [] (configured_sdc (DWii d) scaling prox high low nolow false k)).
  { unfold wii_initialize in I. cbn [andb] in I. cbv zeta in I. destruct (n_preset n && _)%bool; [discriminate|]. destruct (negb (n_frame_ok n)); [discriminate|].
    apply pair_inj in I. destruct I as [_ I]. apply some_inj in I. subst d. unfold wii_inv, configured_sdc. cbn. repeat (split; [reflexivity|]).
    split; [intros _; apply nonzero_nil|]. eexists. split; [reflexivity|]. split; reflexivity. }
  assert (G : exists cs c, updates (configured_sdc (DWii d) scaling prox high low nolow false k) is = Some (cs, c) /\ wii_inv step scaling prox high low nolow cs c).
  { induction is as [|i is IH] using rev_ind; [eexists; eexists; split; [reflexivity|exact I0]|].
    destruct IH as (cs & c & U & IV). destruct (wii_update _ _ _ _ _ _ _ _ i Hs IV) as (cs' & c' & U' & IV' & _).
    exists (cs ++ cs'), c'. rewrite updates_app, U. cbn [updates]. rewrite U', app_nil_r. auto. }
  destruct G as (cs & c & U & IV). exists cs, c. split; [exact U|]. intro i.
  destruct (wii_update _ _ _ _ _ _ _ _ i Hs IV) as (cs' & c' & U' & IV' & _ & B1 & B2). exists cs', c'. split; [exact U'|].
  intro L. cbv zeta. specialize (B1 L). specialize (B2 L). cbv zeta in B2.
  assert (N : c_stopped c' = true -> ~ moving (cs ++ cs')) by (destruct IV' as (_ & _ & _ & _ & _ & _ & Z & _); exact Z).
  split.
  - intros [B|[R2 R3]]; [apply N, B1, B|]. apply N.
    destruct (near_dec high (u_prox i)) as [NH|NH].
    + destruct prox; [apply B1; auto|]. apply B2; [intros [Z _]; discriminate|exact R2|exact R3].
    + apply B2; [tauto|exact R2|exact R3].
  - intros NB R. apply B2; assumption.
Qed.
