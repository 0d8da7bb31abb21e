From Coq Require Import Reals Lra Psatz List Bool String ZArith Lia.
From Verif Require Import Kdl KdlFacts KdlRot KdlRotFacts KinRep Vocab Ft Stream StreamSpec StreamFacts.
Import ListNotations.
Open Scope R_scope.
Local Notation S := Datatypes.S.
Local Notation length := List.length.

Lemma twists_acts : forall ac, (ac = [] \/ exists a, ac = [SAct a]) -> twists ac = [].
Proof. intros ac [->|[a ->]]; reflexivity. Qed.

Lemma factor_slow : forall c b, proximity c b <> HighAlert -> slowdown (c_prox c) (c_nolow c) (c_low c) b (factor c b).
Proof.
  intros c b H. pose proof (proximity_low c b H) as L. unfold slowdown, factor. split; intro S.
  - apply L in S. rewrite S. reflexivity.
  - destruct (proximity c b); try reflexivity. exfalso. apply S, L. reflexivity.
Qed.
Lemma factor_pos : forall c b, 0 < factor c b.
Proof. intros. unfold factor. destruct (proximity c b); lra. Qed.

Lemma high_shape : forall gain pose fixed scaling prox high low nolow c b, sp_shape pose gain fixed scaling prox high low nolow c ->
  (proximity c b = HighAlert <-> prox = true /\ near high b).
Proof. intros gain pose fixed scaling prox high low nolow c b (_ & H2 & H3 & _). rewrite proximity_high, H2, H3. reflexivity. Qed.

Lemma spnav_inv : forall gain names n scaling prox high low nolow k c0 is cs c,
  scaling <> 0 -> spnav_controller false gain names n scaling prox high low nolow k c0 -> updates c0 is = Some (cs, c) ->
  sp_inv gain (configureFixedAxes names) scaling prox high low nolow cs c.
Proof.
  intros gain names n scaling prox high low nolow k c0 is cs c Hs HC HU.
  revert HU. apply history_ind.
  - eapply sp_inv_start. exact HC.
  - intros. eapply sp_inv_step; eassumption.
Qed.

Lemma spnav_defined : forall gain names n scaling prox high low nolow k c0 is,
  scaling <> 0 -> spnav_controller false gain names n scaling prox high low nolow k c0 -> exists cs c, updates c0 is = Some (cs, c).
Proof.
  intros gain names n scaling prox high low nolow k c0 is Hs HC. induction is as [|i is IH] using rev_ind.
  - exists [], c0. reflexivity.
  - destruct IH as (cs & c & U). rewrite updates_app, U. cbn [updates].
    destruct (spnav_inv _ _ _ _ _ _ _ _ _ _ _ _ _ Hs HC U) as ((H1 & H2 & H3 & H4 & H5 & H6 & d & D1 & D2 & D3 & D4) & _).
    assert (Q : exists cs' c', update c i = Some (cs', c')).
    { destruct (acquired_dec (u_reading i)) as [Ha|Ha].
      - destruct (update_spnav_twist c d i D1 D2 H6 ltac:(congruence) Ha) as (cl & op & d' & _ & _ & _ & _ & _ & _ & _ & HI & LO).
        destruct (proximity c (u_prox i)) eqn:P.
        3:{ destruct (HI eq_refl) as [_ E]. eexists; eexists; exact E. }
        1,2: (destruct LO as [_ E]; [discriminate|]; cbv zeta in E; destruct (_ && _)%bool; eexists; eexists; exact E).
      - unfold update. rewrite D1. cbn [acquire]. rewrite spnav_refused by exact Ha. eexists; eexists; reflexivity. }
    destruct Q as (cs' & c' & Q). rewrite Q. eexists; eexists; reflexivity.
Qed.

Lemma velocity_lemma : forall gain names n scaling prox high low nolow k c0 is cs c i,
  scaling <> 0 -> spnav_controller false gain names n scaling prox high low nolow k c0 -> updates c0 is = Some (cs, c) ->
  acquired (u_reading i) ->
  exists cs' c', update c i = Some (cs', c') /\
    let go := acts cs' = [] /\ ~ (prox = true /\ near high (u_prox i)) /\ pushed names (u_reading i) in
    (go -> exists f v, slowdown prox nolow low (u_prox i) f /\ scaled names (scaling * f) (u_reading i) v /\ twists cs' = [v]) /\
    (~ go -> moving cs -> twists cs' = [zeros6]) /\
    (~ go -> ~ moving cs -> twists cs' = []).
Proof.
  intros gain names n scaling prox high low nolow k c0 is cs c i Hs HC HU Ha.
  pose proof (spnav_inv _ _ _ _ _ _ _ _ _ _ _ _ _ Hs HC HU) as (SH & S1 & S2 & _ & _).
  pose proof SH as (H1 & H2 & H3 & H4 & H5 & H6 & d & D1 & D2 & D3 & D4).
  pose proof (high_shape _ _ _ _ _ _ _ _ _ (u_prox i) SH) as HH.
  destruct (update_spnav_twist c d i D1 D2 H6 ltac:(congruence) Ha) as (cl & op & d' & _ & _ & _ & _ & _ & _ & _ & HI & LO).
  assert (MV : c_stopped c = false <-> moving cs) by (destruct (c_stopped c); split; auto; try discriminate; intro Z; elim (S1 eq_refl Z)).
  assert (D : proximity c (u_prox i) = HighAlert \/ proximity c (u_prox i) <> HighAlert) by (destruct (proximity c (u_prox i)); [right|right|left]; congruence).
  destruct D as [D|D].
  - destruct (HI D) as [_ E]. eexists; eexists. split; [exact E|]. cbv zeta. apply HH in D.
    split; [intros (_ & G & _); contradiction|]. split; intros _ M; [apply MV in M; rewrite M; reflexivity|].
    destruct (c_stopped c); [reflexivity|]. exfalso. apply M, MV. reflexivity.
  - destruct (LO D) as [_ E]. cbv zeta in E. clear LO HI.
    pose proof (factor_slow c (u_prox i) D) as SL. rewrite H2, H4, H5 in SL.
    pose proof (factor_pos c (u_prox i)) as FP.
    set (f := factor c (u_prox i)) in *. rewrite D4, H1 in E.
    pose proof (sp_twist_scaled names (scaling * f) (u_reading i) Ha) as SC.
    assert (KN : scaling * f <> 0) by (apply Rmult_integral_contrapositive; split; [exact Hs|lra]).
    pose proof (scaled_nonzero names _ _ _ KN SC) as NZ.
    set (v := sp_twist (configureFixedAxes names) (scaling * f) (u_reading i)) in *.
    pose proof (base_valid_nonzero v) as BV.
    set (a := next_actuator cl op (sp_act d)) in *.
    destruct (Z.eqb a VOCAB_CC_ACTUATOR_NONE) eqn:EA; cbn [andb] in E.
    + destruct (existsb (fun x => negb (Reqb x 0)) v) eqn:B.
      * eexists; eexists. split; [exact E|]. cbv zeta.
        assert (GO : acts [STwist v] = [] /\ ~ (prox = true /\ near high (u_prox i)) /\ pushed names (u_reading i)).
        { split; [reflexivity|]. split; [intro Z; apply D, HH, Z|]. apply NZ, BV. reflexivity. }
        split; [intros _; exists f, v; split; [exact SL|]; split; [exact SC|reflexivity]|]. split; intros NG; contradiction.
      * eexists; eexists. split; [exact E|]. cbv zeta.
        split; [intros (_ & _ & G); apply NZ, BV in G; discriminate|].
        split; intros _ M; [apply MV in M; rewrite M; reflexivity|].
        destruct (c_stopped c); [reflexivity|]. exfalso. apply M, MV. reflexivity.
    + eexists; eexists. split; [exact E|]. cbv zeta.
      split; [intros (G & _); cbn in G; discriminate|].
      split; intros _ M; [apply MV in M; rewrite M; reflexivity|].
      destruct (c_stopped c); [reflexivity|]. exfalso. apply M, MV. reflexivity.
Qed.

Lemma once_lemma : forall gain names n scaling prox high low nolow k c0 is,
  scaling <> 0 -> spnav_controller false gain names n scaling prox high low nolow k c0 ->
  exists cs c, updates c0 is = Some (cs, c) /\ stops_once cs /\
    (forall v i, In v (twists cs) -> (i < 6)%nat -> is_fixed names i -> nth i v 0 = 0).
Proof.
  intros gain names n scaling prox high low nolow k c0 is Hs HC.
  destruct (spnav_defined _ _ _ _ _ _ _ _ _ _ is Hs HC) as (cs & c & U). exists cs, c. split; [exact U|].
  destruct (spnav_inv _ _ _ _ _ _ _ _ _ _ _ _ _ Hs HC U) as (_ & _ & _ & SO & FX). split; [exact SO|].
  intros v i I L F. apply (FX v i I L). apply fixed_nth; assumption.
Qed.

(** * Obstacles *)
Lemma obstacle_lemma : forall gain names n scaling prox high low nolow k c0 is cs c i cs' c',
  scaling <> 0 -> spnav_controller false gain names n scaling prox high low nolow k c0 -> updates c0 is = Some (cs, c) ->
  acquired (u_reading i) -> prox = true -> near high (u_prox i) -> update c i = Some (cs', c') -> ~ moving (cs ++ cs') /\ Forall (eq (STwist zeros6)) cs'.
Proof.
  intros gain names n scaling prox high low nolow k c0 is cs c i cs' c' Hs HC HU Ha P N U.
  pose proof (spnav_inv _ _ _ _ _ _ _ _ _ _ _ _ _ Hs HC HU) as IV.
  pose proof (sp_inv_step _ _ _ _ _ _ _ _ _ _ _ _ Hs IV U) as (_ & T1 & _).
  destruct IV as (SH & S1 & S2 & _ & _).
  pose proof SH as (H1 & H2 & H3 & H4 & H5 & H6 & d & D1 & D2 & D3 & D4).
  destruct (update_spnav_twist c d i D1 D2 H6 ltac:(congruence) Ha) as (cl & op & d' & _ & _ & _ & _ & _ & _ & _ & HI & _).
  assert (D : proximity c (u_prox i) = HighAlert) by (eapply high_shape; eauto).
  destruct (HI D) as [_ E]. rewrite E in U. apply some_inj, pair_inj in U. destruct U as [<- <-].
  split; [apply T1; reflexivity|]. destruct (c_stopped c); [constructor|constructor; [reflexivity|constructor]].
Qed.

(** * The gripper *)
Definition sp_acts_inv (prox : bool) (high : Z) (cs : list s_cmd) (c : sdc) : Prop :=
  c_prox c = prox /\ c_high c = high /\ exists d, c_dev c = DSpnav d /\
    match last_act cs with
    | None => sp_act d = VOCAB_CC_ACTUATOR_NONE
    | Some a => if Z.eqb a VOCAB_CC_ACTUATOR_STOP_GRIPPER
                then sp_act d = VOCAB_CC_ACTUATOR_STOP_GRIPPER \/ sp_act d = VOCAB_CC_ACTUATOR_NONE
                else sp_act d = a /\ (a = VOCAB_CC_ACTUATOR_CLOSE_GRIPPER \/ a = VOCAB_CC_ACTUATOR_OPEN_GRIPPER)
    end.

Lemma acts_stop : forall s, acts (spnav_stop s) = [].
Proof. intro s. unfold spnav_stop. destruct (sp_pose s); reflexivity. Qed.
Lemma acts_send : forall s, acts (fst (spnav_send s)) = [] /\ sp_act (snd (spnav_send s)) = sp_act s.
Proof. intro s. unfold spnav_send. destruct (sp_pose s); split; reflexivity. Qed.
Lemma acts_transform : forall s k s', spnav_transform s k = Some s' -> sp_act s' = sp_act s /\ sp_pose s' = sp_pose s.
Proof.
  intros s k s' H. unfold spnav_transform in H. destruct (sp_pose s) eqn:E.
  - destruct (_ || _)%bool; [discriminate|]. apply some_inj in H. subst s'. split; [reflexivity|exact E].
  - destruct (base_transform _ _ _); [|discriminate]. apply some_inj in H. subst s'. split; [reflexivity|exact E].
Qed.

Lemma update_acts : forall c d i cs' c', c_dev c = DSpnav d -> update c i = Some (cs', c') ->
  c_prox c' = c_prox c /\ c_high c' = c_high c /\
  exists d', c_dev c' = DSpnav d' /\
   (~ acquired (u_reading i) -> cs' = [] /\ d' = d) /\
   (acquired (u_reading i) -> proximity c (u_prox i) = HighAlert -> acts cs' = [] /\ sp_act d' = sp_act d) /\
   (acquired (u_reading i) -> proximity c (u_prox i) <> HighAlert ->
      exists cl op, (length (u_reading i) = 8%nat -> cl = Reqb (nth 6 (u_reading i) 0) 1 /\ op = Reqb (nth 7 (u_reading i) 0) 1) /\
        sp_act d' = next_actuator cl op (sp_act d) /\
        acts cs' = if Z.eqb (sp_act d') VOCAB_CC_ACTUATOR_NONE then [] else [sp_act d']).
Proof.
  intros c d i cs' c' D U. unfold update in U. rewrite D in U. cbn [acquire] in U.
  destruct (acquired_dec (u_reading i)) as [Ha|Ha].
  2:{ rewrite spnav_refused in U by exact Ha. cbn in U. apply some_inj, pair_inj in U. destruct U as [<- <-].
      split; [reflexivity|]. split; [reflexivity|]. exists d. split; [exact D|]. split; [tauto|]. split; tauto. }
  destruct (spnav_acquired d (u_reading i) Ha) as (cl & op & Q & B8 & B6). rewrite Q in U. cbn [option_map] in U.
  set (d1 := Spnav (sp_pose d) (sp_gain d) (sp_fixed d) (firstn 6 (u_reading i)) (sp_cur d) cl op (sp_act d)) in *.
  assert (G : forall k, (let '(a, d0) := actuator (DSpnav d1) in
        let acts := if negb (Z.eqb a VOCAB_CC_ACTUATOR_NONE) then [SAct a] else [] in
        match transform d0 k with
        | Some d2 =>
            let '(d3, k) := apply_centroid c d2 i in
            let c := set_centroid c k in
            if valid d3 then
             match send d3 (u_time i) with
             | Some (m, d4) => Some (acts ++ m, set_dev c d4 false)
             | None => None
             end
            else Some (acts ++ (if c_stopped c then [] else stop_motion d3), set_dev c d3 true)
        | None => None
        end) = Some (cs', c') ->
     c_prox c' = c_prox c /\ c_high c' = c_high c /\
     exists d', c_dev c' = DSpnav d' /\ sp_act d' = next_actuator cl op (sp_act d) /\
        acts cs' = if Z.eqb (sp_act d') VOCAB_CC_ACTUATOR_NONE then [] else [sp_act d']).
  { clear U. intros k U. cbn [actuator spnav_actuator d1 sp_close sp_open sp_act] in U.
    set (a := next_actuator cl op (sp_act d)) in *.
    cbv zeta in U. cbn [transform] in U.
    destruct (spnav_transform _ k) as [d2|] eqn:T; cbn [option_map] in U; [|discriminate].
    apply acts_transform in T. destruct T as [T _]. cbn [sp_act] in T.
    destruct (apply_centroid c (DSpnav d2) i) as [d3 k3] eqn:AC.
    assert (Z3 : exists s3, d3 = DSpnav s3 /\ sp_act s3 = a).
    { unfold apply_centroid in AC. destruct (c_cent c); [|apply pair_inj in AC; destruct AC as [<- _]; eexists; split; [reflexivity|exact T]].
      destruct (acceptBottle _ _ _) as [ok kk]. destruct ok; [|apply pair_inj in AC; destruct AC as [<- _]; eexists; split; [reflexivity|exact T]].
      destruct (processStoredBottle _ _ _); apply pair_inj in AC; destruct AC as [<- _]; eexists; (split; [reflexivity|exact T]). }
    destruct Z3 as (s3 & -> & A3). cbn [valid send stop_motion] in U.
    assert (AA : forall m, acts m = [] -> acts ((if negb (Z.eqb a VOCAB_CC_ACTUATOR_NONE) then [SAct a] else []) ++ m) = if Z.eqb a VOCAB_CC_ACTUATOR_NONE then [] else [a]).
    { intros m Hm. rewrite acts_app, Hm, app_nil_r. destruct (Z.eqb a VOCAB_CC_ACTUATOR_NONE); reflexivity. }
    destruct (spnav_valid s3).
    - destruct (acts_send s3) as [S1 S2]. destruct (spnav_send s3) as [m d4]. cbn [fst snd] in S1, S2.
      apply some_inj, pair_inj in U. destruct U as [<- <-]. split; [reflexivity|]. split; [reflexivity|]. exists d4. split; [reflexivity|].
      split; [congruence|]. rewrite S2, A3. apply AA, S1.
    - apply some_inj, pair_inj in U. destruct U as [<- <-]. split; [reflexivity|]. split; [reflexivity|]. exists s3. split; [reflexivity|].
      split; [congruence|]. rewrite A3. apply AA. destruct (c_stopped _); [reflexivity|apply acts_stop]. }
  destruct (proximity c (u_prox i)) eqn:P.
  3:{ apply some_inj, pair_inj in U. destruct U as [<- <-]. split; [reflexivity|]. split; [reflexivity|]. exists d1. split; [reflexivity|].
      split; [tauto|]. split; [|congruence]. intros _ _. split; [|reflexivity]. destruct (c_stopped c); [reflexivity|apply acts_stop]. }
  1,2: (apply G in U; destruct U as (U1 & U2 & d' & U3 & U4 & U5); split; [exact U1|]; split; [exact U2|]; exists d'; split; [exact U3|];
        split; [tauto|]; split; [discriminate|]; intros _ _; exists cl, op; auto).
Qed.

Lemma last_act_app : forall cs cs', last_act (cs ++ cs') = match last_act cs' with Some a => Some a | None => last_act cs end.
Proof.
  intros. unfold last_act. rewrite acts_app, rev_app_distr. destruct (rev (acts cs')); reflexivity.
Qed.

Lemma acts_inv_step : forall prox high cs c i cs' c', sp_acts_inv prox high cs c -> update c i = Some (cs', c') -> sp_acts_inv prox high (cs ++ cs') c'.
Proof.
  intros prox high cs c i cs' c' (H1 & H2 & d & D & L) U.
  destruct (update_acts c d i cs' c' D U) as (E1 & E2 & d' & D' & A1 & A2 & A3).
  split; [congruence|]. split; [congruence|]. exists d'. split; [exact D'|]. rewrite last_act_app.
  destruct (acquired_dec (u_reading i)) as [Ha|Ha].
  2:{ destruct (A1 Ha) as [-> ->]. exact L. }
  destruct (proximity c (u_prox i)) eqn:P.
  3:{ destruct (A2 Ha eq_refl) as [B1 B2]. unfold last_act at 1. rewrite B1. cbn [rev hd_error]. rewrite B2. exact L. }
  1,2: (destruct A3 as (cl & op & _ & B1 & B2); [exact Ha|discriminate|];
    unfold last_act at 1; rewrite B2, B1; clear - L; unfold next_actuator in *;
    destruct cl; [cbn; auto|]; destruct op; [cbn; auto|];
    destruct (Z.eqb_spec (sp_act d) VOCAB_CC_ACTUATOR_NONE) as [E|E]; cbn [negb];
    [ cbn; destruct (last_act cs) as [a|]; [|reflexivity]; destruct (Z.eqb a VOCAB_CC_ACTUATOR_STOP_GRIPPER); [auto|];
      destruct L as [L1 L2]; rewrite E in L1; subst a; destruct L2; discriminate
    | destruct (Z.eqb_spec (sp_act d) VOCAB_CC_ACTUATOR_STOP_GRIPPER) as [E'|E']; cbn [negb];
      [ cbn; destruct (last_act cs) as [a|]; [|congruence]; destruct (Z.eqb_spec a VOCAB_CC_ACTUATOR_STOP_GRIPPER); [auto|];
        destruct L as [L1 L2]; congruence
      | cbn; auto ] ]).
Qed.

Lemma acts_inv_start : forall pose gain fixed n ics d scaling prox high low nolow cent k,
  spnav_initialize pose gain fixed n = (ics, Some d) -> sp_acts_inv prox high [] (configured_sdc (DSpnav d) scaling prox high low nolow cent k).
Proof.
  intros pose gain fixed n ics d scaling prox high low nolow cent k I. split; [reflexivity|]. split; [reflexivity|]. exists d. split; [reflexivity|].
  cbn. unfold spnav_initialize in I. destruct (pose && _)%bool; [discriminate|]. cbv zeta in I.
  destruct (n_preset n && _)%bool; [discriminate|]. destruct (negb _); [discriminate|]. apply pair_inj in I. destruct I as [_ I]. apply some_inj in I. subst d. reflexivity.
Qed.

Lemma gripper_lemma : forall pose gain fixed n ics d scaling prox high low nolow cent k is cs c i cs' c',
  spnav_initialize pose gain fixed n = (ics, Some d) ->
  updates (configured_sdc (DSpnav d) scaling prox high low nolow cent k) is = Some (cs, c) -> update c i = Some (cs', c') ->
  length (u_reading i) = 8%nat -> ~ (prox = true /\ near high (u_prox i)) ->
  gripper (nth 6 (u_reading i) 0) (nth 7 (u_reading i) 0) (last_act cs) (acts cs').
Proof.
  intros pose gain fixed n ics d0 scaling prox high low nolow cent k is cs c i cs' c' I HU U L8 NH.
  assert (IV : sp_acts_inv prox high cs c).
  { revert HU. apply history_ind; [eapply acts_inv_start; exact I|]. intros. eapply acts_inv_step; eassumption. }
  destruct IV as (H1 & H2 & d & D & L).
  destruct (update_acts c d i cs' c' D U) as (E1 & E2 & d' & D' & A1 & A2 & A3).
  destruct A3 as (cl & op & B & B1 & B2); [right; exact L8|rewrite proximity_high, H1, H2; exact NH|].
  destruct (B L8) as [-> ->]. rewrite B2, B1. clear - L. unfold gripper, next_actuator.
  set (x := nth 6 (u_reading i) 0). set (y := nth 7 (u_reading i) 0).
  destruct (Reqb x 1) eqn:EX; [apply Reqb_true in EX|apply Reqb_false in EX].
  { split; [reflexivity|]. split; intros; contradiction. }
  destruct (Reqb y 1) eqn:EY; [apply Reqb_true in EY|apply Reqb_false in EY].
  { split; [intro; contradiction|]. split; [reflexivity|]. intros; contradiction. }
  split; [intro; contradiction|]. split; [intros; contradiction|]. intros _ _. split.
  - intros [Z|Z]; rewrite Z in L; cbn in L; destruct L as [L _]; rewrite L; reflexivity.
  - intros [Z|Z]; rewrite Z in L; cbn in L; [rewrite L; reflexivity|]. destruct L as [L|L]; rewrite L; reflexivity.
Qed.
