From Coq Require Import Reals Lra Psatz List Bool String ZArith Lia.
From Verif Require Import Kdl KdlFacts KdlRot KdlRotFacts KinRep Vocab Ft Stream StreamSpec.
Import ListNotations.
Open Scope R_scope.
Local Notation S := Datatypes.S.
Local Notation length := List.length.

Lemma some_inj : forall A (a b : A), Some a = Some b -> a = b.
Proof. congruence. Qed.
Lemma pair_inj : forall A B (a c : A) (b d : B), (a, b) = (c, d) -> a = c /\ b = d.
Proof. intros; split; congruence. Qed.

(** * Fixed axes *)
Lemma fix_axis_length : forall f n, length f = 6%nat -> length (fix_axis f n) = 6%nat.
Proof. intros. unfold fix_axis. rewrite map_length, combine_length, H. reflexivity. Qed.
Lemma fix_axis_nth : forall f n i, length f = 6%nat -> (i < 6)%nat ->
  nth i (fix_axis f n) false = (String.eqb (axis_label i) n || nth i f false)%bool.
Proof.
  intros f n i H Hi. do 7 (destruct f as [|? f]; try discriminate).
  do 6 (destruct i as [|i]; [reflexivity|]). lia.
Qed.
Lemma fixed_length : forall v, length (configureFixedAxes v) = 6%nat.
Proof.
  intros [l|]; [|reflexivity]. unfold configureFixedAxes.
  assert (G : forall l f, length f = 6%nat -> length (fold_left fix_axis l f) = 6%nat).
  { induction l0 as [|n l0 IH]; intros f H; [exact H|]. cbn. apply IH, fix_axis_length, H. }
  apply G. reflexivity.
Qed.
Lemma fixed_nth : forall v i, (i < 6)%nat -> nth i (configureFixedAxes v) false = true <-> is_fixed v i.
Proof.
  intros v i Hi. destruct v as [l|].
  - unfold configureFixedAxes, is_fixed.
    assert (G : forall l f, length f = 6%nat -> nth i (fold_left fix_axis l f) false = true <-> In (axis_label i) l \/ nth i f false = true).
    { induction l0 as [|n l0 IH]; intros f H; [cbn; tauto|]. cbn [fold_left]. rewrite IH by (apply fix_axis_length, H).
      rewrite fix_axis_nth by assumption. rewrite orb_true_iff, String.eqb_eq. cbn [In].
      split; [intros [A|[A|A]]|intros [[A|A]|A]]; auto. }
    rewrite G by reflexivity. split; [intros [A|A]; [exact A|]|auto].
    do 6 (destruct i as [|i]; [discriminate|]). lia.
  - cbn. do 6 (destruct i as [|i]; [split; [discriminate|contradiction]|]). lia.
Qed.

(** * The proximity sensors *)
Lemma alert_fold : forall l a, fold_left (fun a x => if Rltb a x then x else a) l a = Rmax a (fold_right Rmax a l).
Proof.
  induction l as [|x l IH]; intro a; cbn [fold_left fold_right].
  - symmetry. apply Rmax_left. lra.
  - rewrite IH. destruct (Rltb a x) eqn:E.
    + apply Rltb_true in E.
      assert (G : forall l, Rmax x (fold_right Rmax x l) = Rmax x (fold_right Rmax a l)).
      { induction l0 as [|y l0 IHl]; cbn [fold_right]; [rewrite !Rmax_left by lra; reflexivity|].
        rewrite (Rmax_comm y (fold_right Rmax x l0)), (Rmax_comm y (fold_right Rmax a l0)), !Rmax_assoc, IHl. reflexivity. }
      rewrite G, Rmax_assoc, (Rmax_right a x) by lra. reflexivity.
    + apply Rltb_false in E.
      rewrite (Rmax_comm x), !(Rmax_assoc a), (Rmax_comm (Rmax a _) x), !Rmax_assoc, (Rmax_right x a) by lra. reflexivity.
Qed.
Lemma fold_max_ge : forall l a, a <= fold_right Rmax a l.
Proof. induction l; intros b; cbn; [lra|]. eapply Rle_trans; [apply IHl|apply Rmax_r]. Qed.
Lemma alert_level_max : forall l, alert_level l = fold_right Rmax 0 l.
Proof. intro l. unfold alert_level. rewrite alert_fold. apply Rmax_right, fold_max_ge. Qed.

Lemma near_dec : forall thr b, near thr b \/ ~ near thr b.
Proof.
  intros thr [[|x l]|].
  - right. intros (l & E & N & _). congruence.
  - destruct (Rlt_dec (IZR thr) (fold_right Rmax 0 (x :: l))) as [H|H].
    + left. exists (x :: l). split; [reflexivity|]. split; [discriminate|exact H].
    + right. intros (m & E & _ & L). apply some_inj in E. subst. contradiction.
  - right. intros (l & E & _). discriminate.
Qed.

Lemma proximity_high : forall c b, proximity c b = HighAlert <-> c_prox c = true /\ near (c_high c) b.
Proof.
  intros c b. unfold proximity. destruct (c_prox c); [|split; [discriminate|intros [A _]; discriminate]].
  destruct b as [[|x l]|].
  - split; [discriminate|]. intros [_ (m & E & N & _)]. congruence.
  - rewrite alert_level_max. destruct (Rltb _ _) eqn:E.
    + apply Rltb_true in E. split; [intros _; split; [reflexivity|]; exists (x :: l); split; [reflexivity|]; split; [discriminate|exact E]|reflexivity].
    + apply Rltb_false in E. split.
      * destruct (_ && _); discriminate.
      * intros [_ (m & M & _ & L)]. apply some_inj in M. subst m. lra.
  - split; [discriminate|]. intros [_ (m & E & _)]. discriminate.
Qed.
Lemma proximity_low : forall c b, proximity c b <> HighAlert ->
  proximity c b = LowAlert <-> c_prox c = true /\ c_nolow c = false /\ near (c_low c) b.
Proof.
  intros c b NH. unfold proximity in *. destruct (c_prox c); [|split; [discriminate|intros [A _]; discriminate]].
  destruct b as [[|x l]|].
  - split; [discriminate|]. intros (_ & _ & (m & E & N & _)). congruence.
  - rewrite alert_level_max in *. destruct (Rltb _ _); [contradiction|].
    destruct (c_nolow c); cbn [negb andb] in *.
    + split; [discriminate|]. intros (_ & A & _). discriminate.
    + destruct (Rltb _ _) eqn:E.
      * apply Rltb_true in E. split; [intros _; split; [reflexivity|]; split; [reflexivity|]; exists (x :: l); split; [reflexivity|]; split; [discriminate|exact E]|reflexivity].
      * apply Rltb_false in E. split; [discriminate|]. intros (_ & _ & (m & M & _ & L)). apply some_inj in M. subst m. lra.
  - split; [discriminate|]. intros (_ & _ & (m & E & _)). discriminate.
Qed.

(** * Lists of commands *)
Lemma twists_app : forall a b, twists (a ++ b) = twists a ++ twists b.
Proof. intros. apply flat_map_app. Qed.
Lemma acts_app : forall a b, acts (a ++ b) = acts a ++ acts b.
Proof. intros. apply flat_map_app. Qed.
Lemma poses_app : forall a b, poses (a ++ b) = poses a ++ poses b.
Proof. intros. apply flat_map_app. Qed.
Lemma last_app_one : forall A (l : list A) v d, last (l ++ [v]) d = v.
Proof. intros. apply last_last. Qed.

Lemma nonzero_zeros : ~ nonzero zeros6.
Proof. intro H. unfold zeros6 in H. cbn in H. repeat (apply Exists_cons in H; destruct H as [H|H]; [apply H; reflexivity|]). inversion H. Qed.
Lemma nonzero_nil : ~ nonzero [].
Proof. intro H. inversion H. Qed.
Lemma base_valid_nonzero : forall v, existsb (fun d => negb (Reqb d 0)) v = true <-> nonzero v.
Proof.
  intro v. rewrite existsb_exists. unfold nonzero. rewrite Exists_exists. split; intros (x & A & B); exists x; split; auto.
  - apply negb_true_iff, Reqb_false in B. exact B.
  - apply negb_true_iff, Reqb_false. exact B.
Qed.

Lemma updates_app : forall is js c, updates c (is ++ js) =
  match updates c is with
  | None => None
  | Some (cs, c') => match updates c' js with Some (cs', c'') => Some (cs ++ cs', c'') | None => None end
  end.
Proof.
  induction is as [|i is IH]; intros js c; cbn [app updates].
  - destruct (updates c js) as [[]|]; reflexivity.
  - destruct (update c i) as [[cs c1]|]; [|reflexivity]. rewrite IH.
    destruct (updates c1 is) as [[cs1 c2]|]; [|reflexivity]. destruct (updates c2 js) as [[cs2 c3]|]; [|reflexivity].
    rewrite app_assoc. reflexivity.
Qed.

(* induction principle over histories, adding updates at the end *)
Lemma history_ind : forall (P : list s_cmd -> sdc -> Prop) c0,
  P [] c0 ->
  (forall cs c i cs' c', P cs c -> update c i = Some (cs', c') -> P (cs ++ cs') c') ->
  forall is cs c, updates c0 is = Some (cs, c) -> P cs c.
Proof.
  intros P c0 H0 HS is. induction is as [|i is IH] using rev_ind; intros cs c H.
  - cbn in H. apply some_inj, pair_inj in H. destruct H; subst. exact H0.
  - rewrite updates_app in H. destruct (updates c0 is) as [[cs1 c1]|] eqn:E; [|discriminate].
    cbn [updates] in H. destruct (update c1 i) as [[cs2 c2]|] eqn:U; [|discriminate].
    apply some_inj, pair_inj in H. destruct H as [<- <-]. rewrite app_nil_r.
    eapply HS; [apply IH; reflexivity|exact U].
Qed.

(** * The SpaceNavigator in twist mode *)
Definition sp_shape (pose : bool) (gain : R) (fixed : list bool) (scaling : R) (prox : bool) (high low : Z) (nolow : bool) (c : sdc) : Prop :=
  c_scaling c = scaling /\ c_prox c = prox /\ c_high c = high /\ c_low c = low /\ c_nolow c = nolow /\ c_cent c = false /\
  exists d, c_dev c = DSpnav d /\ sp_pose d = pose /\ sp_gain d = gain /\ sp_fixed d = fixed.

Lemma spnav_acquired : forall d r, acquired r -> exists c o,
  spnav_acquire d r = Some (Spnav (sp_pose d) (sp_gain d) (sp_fixed d) (firstn 6 r) (sp_cur d) c o (sp_act d)) /\
  (length r = 8%nat -> c = Reqb (nth 6 r 0) 1 /\ o = Reqb (nth 7 r 0) 1) /\ (length r = 6%nat -> c = sp_close d /\ o = sp_open d).
Proof.
  intros d r [H|H]; unfold spnav_acquire; rewrite H; cbn [Nat.eqb orb]; eexists; eexists; (split; [reflexivity|]);
  split; intro; try (split; reflexivity); discriminate.
Qed.
Lemma spnav_refused : forall d r, ~ acquired r -> spnav_acquire d r = None.
Proof.
  intros d r H. unfold spnav_acquire, acquired in *.
  destruct (Nat.eqb_spec (length r) 6); destruct (Nat.eqb_spec (length r) 8); try reflexivity; tauto.
Qed.
Lemma acquired_dec : forall r, acquired r \/ ~ acquired r.
Proof. intro r. unfold acquired. lia. Qed.

(** factor applied in a cycle that is not blocked *)
Definition factor (c : sdc) (b : option (list R)) : R := match proximity c b with LowAlert => 2 | _ => 1 end.

(* one update of the SpaceNavigator in twist mode *)
Definition sp_twist (fixed : list bool) (k : R) (r : list R) : list R :=
  map (fun fd => if fst fd : bool then 0 else snd fd / k) (combine fixed (firstn 6 r)).

Lemma update_spnav_twist : forall c d i, c_dev c = DSpnav d -> sp_pose d = false -> c_cent c = false -> c_scaling c <> 0 ->
  acquired (u_reading i) ->
  exists cl op d',
    (length (u_reading i) = 8%nat -> cl = Reqb (nth 6 (u_reading i) 0) 1 /\ op = Reqb (nth 7 (u_reading i) 0) 1) /\
    (length (u_reading i) = 6%nat -> cl = sp_close d /\ op = sp_open d) /\
    sp_pose d' = false /\ sp_gain d' = sp_gain d /\ sp_fixed d' = sp_fixed d /\ sp_close d' = cl /\ sp_open d' = op /\
    (proximity c (u_prox i) = HighAlert ->
       sp_act d' = sp_act d /\
       update c i = Some (if c_stopped c then [] else [STwist zeros6], set_dev c (DSpnav d') true)) /\
    (proximity c (u_prox i) <> HighAlert ->
       let a := next_actuator cl op (sp_act d) in
       let v := sp_twist (sp_fixed d) (c_scaling c * factor c (u_prox i)) (u_reading i) in
       let ac := if Z.eqb a VOCAB_CC_ACTUATOR_NONE then [] else [SAct a] in
       sp_act d' = a /\
       if (Z.eqb a VOCAB_CC_ACTUATOR_NONE && existsb (fun x => negb (Reqb x 0)) v)%bool
       then update c i = Some ([STwist v], set_dev c (DSpnav d') false)
       else update c i = Some (ac ++ (if c_stopped c then [] else [STwist zeros6]), set_dev c (DSpnav d') true)).
Proof.
  intros c d i Hd Hp Hc Hs Ha.
  destruct (spnav_acquired d (u_reading i) Ha) as (cl & op & Q & B8 & B6).
  unfold update. rewrite Hd. cbn [acquire]. rewrite Q. cbn [option_map].
  destruct (proximity c (u_prox i)) eqn:P.
  - unfold factor. rewrite P. rewrite Rmult_1_r.
    exists cl, op, (Spnav false (sp_gain d) (sp_fixed d) (sp_twist (sp_fixed d) (c_scaling c) (u_reading i)) (sp_cur d) cl op (next_actuator cl op (sp_act d))).
    split; [exact B8|]. split; [exact B6|].
    cbn [sp_close sp_open sp_act sp_pose sp_gain sp_fixed sp_data sp_cur]. repeat (split; [reflexivity|]).
    split; [discriminate|]. intros _. cbv zeta. split; [reflexivity|].
    cbn [actuator spnav_actuator sp_close sp_open sp_act sp_pose sp_gain sp_fixed sp_data sp_cur transform spnav_transform].
    unfold spnav_transform. rewrite Hp. unfold base_transform. cbn [sp_close sp_open sp_act sp_pose sp_gain sp_fixed sp_data sp_cur].
    replace (Reqb (c_scaling c) 0) with false by (symmetry; apply Reqb_false; exact Hs). cbn [andb option_map].
    unfold apply_centroid. rewrite Hc. unfold spnav_set, set_centroid. cbn [sp_close sp_open sp_act sp_pose sp_gain sp_fixed sp_data sp_cur valid spnav_valid].
    unfold spnav_valid, base_valid. cbn [sp_close sp_open sp_act sp_pose sp_gain sp_fixed sp_data sp_cur].
    fold (sp_twist (sp_fixed d) (c_scaling c) (u_reading i)).
    destruct (Z.eqb (next_actuator cl op (sp_act d)) VOCAB_CC_ACTUATOR_NONE); cbn [negb andb app].
    + destruct (existsb _ _); cbn [send spnav_send sp_pose sp_data app]; [destruct c; reflexivity|].
      cbn [stop_motion spnav_stop sp_pose c_stopped]. destruct c; reflexivity.
    + cbn [stop_motion spnav_stop sp_pose c_stopped]. destruct c; reflexivity.
  - unfold factor. rewrite P. 
    exists cl, op, (Spnav false (sp_gain d) (sp_fixed d) (sp_twist (sp_fixed d) (c_scaling c * 2) (u_reading i)) (sp_cur d) cl op (next_actuator cl op (sp_act d))).
    split; [exact B8|]. split; [exact B6|].
    cbn [sp_close sp_open sp_act sp_pose sp_gain sp_fixed sp_data sp_cur]. repeat (split; [reflexivity|]).
    split; [discriminate|]. intros _. cbv zeta. split; [reflexivity|].
    cbn [actuator spnav_actuator sp_close sp_open sp_act sp_pose sp_gain sp_fixed sp_data sp_cur transform spnav_transform].
    unfold spnav_transform. rewrite Hp. unfold base_transform. cbn [sp_close sp_open sp_act sp_pose sp_gain sp_fixed sp_data sp_cur].
    replace (Reqb (c_scaling c * 2) 0) with false by (symmetry; apply Reqb_false; lra). cbn [andb option_map].
    unfold apply_centroid. rewrite Hc. unfold spnav_set, set_centroid. cbn [sp_close sp_open sp_act sp_pose sp_gain sp_fixed sp_data sp_cur valid spnav_valid].
    unfold spnav_valid, base_valid. cbn [sp_close sp_open sp_act sp_pose sp_gain sp_fixed sp_data sp_cur].
    fold (sp_twist (sp_fixed d) (c_scaling c * 2) (u_reading i)).
    destruct (Z.eqb (next_actuator cl op (sp_act d)) VOCAB_CC_ACTUATOR_NONE); cbn [negb andb app].
    + destruct (existsb _ _); cbn [send spnav_send sp_pose sp_data app]; [destruct c; reflexivity|].
      cbn [stop_motion spnav_stop sp_pose c_stopped]. destruct c; reflexivity.
    + cbn [stop_motion spnav_stop sp_pose c_stopped]. destruct c; reflexivity.
  - exists cl, op, (Spnav false (sp_gain d) (sp_fixed d) (firstn 6 (u_reading i)) (sp_cur d) cl op (sp_act d)).
    split; [exact B8|]. split; [exact B6|].
    cbn [sp_close sp_open sp_act sp_pose sp_gain sp_fixed sp_data sp_cur]. repeat (split; [reflexivity|]).
    split.
    + intros _. split; [reflexivity|]. cbn [stop_motion spnav_stop sp_pose]. rewrite Hp. reflexivity.
    + intro N. exfalso. apply N. reflexivity.
Qed.

Lemma sp_twist_scaled : forall names k r, acquired r -> scaled names k r (sp_twist (configureFixedAxes names) k r).
Proof.
  intros names k r Ha. unfold sp_twist.
  assert (L : length (firstn 6 r) = 6%nat) by (rewrite firstn_length; unfold acquired in Ha; lia).
  pose proof (fixed_length names) as LF.
  split; [rewrite map_length, combine_length, LF, L; reflexivity|].
  intros i Hi.
  assert (E : nth i (map (fun fd : bool * R => if fst fd then 0 else snd fd / k) (combine (configureFixedAxes names) (firstn 6 r))) 0
            = if nth i (configureFixedAxes names) false then 0 else nth i r 0 / k).
  { assert (N : nth i (firstn 6 r) 0 = nth i r 0).
    { rewrite <- (firstn_skipn 6 r) at 2. rewrite app_nth1 by lia. reflexivity. }
    rewrite <- N. revert LF L Hi. generalize (configureFixedAxes names) (firstn 6 r). intros f l LF L Hi.
    do 7 (destruct f as [|? f]; try discriminate). do 7 (destruct l as [|? l]; try discriminate).
    do 6 (destruct i as [|i]; [reflexivity|]). lia. }
  rewrite E. pose proof (fixed_nth names i Hi) as FN.
  destruct (nth i (configureFixedAxes names) false); split; intro H; try reflexivity.
  - exfalso. apply H, FN. reflexivity.
  - apply FN in H. discriminate.
Qed.

Lemma scaled_nonzero : forall names k r v, k <> 0 -> scaled names k r v -> (nonzero v <-> pushed names r).
Proof.
  intros names k r v Hk [L H]. unfold nonzero, pushed. rewrite Exists_exists. split.
  - intros (x & I & N). apply In_nth with (d := 0) in I. destruct I as (i & Li & E). rewrite L in Li.
    destruct (H i Li) as [A B].
    assert (D : is_fixed names i \/ ~ is_fixed names i).
    { pose proof (fixed_nth names i Li) as F. destruct (nth i (configureFixedAxes names) false); [left; apply F; reflexivity|right; intro Z; apply F in Z; discriminate]. }
    destruct D as [D|D]; [rewrite (A D) in E; congruence|]. exists i. split; [exact Li|]. split; [exact D|].
    intro Z. apply N. rewrite <- E, (B D), Z. unfold Rdiv. ring.
  - intros (i & Li & D & N). exists (nth i v 0). split; [apply nth_In; lia|].
    destruct (H i Li) as [_ B]. rewrite (B D). intro Z. apply N.
    apply Rmult_eq_reg_r with (/ k); [|apply Rinv_neq_0_compat; exact Hk]. unfold Rdiv in Z. lra.
Qed.

(* what is kept along a history *)
Definition sp_inv (gain : R) (fixed : list bool) (scaling : R) (prox : bool) (high low : Z) (nolow : bool) (cs : list s_cmd) (c : sdc) : Prop :=
  sp_shape false gain fixed scaling prox high low nolow c /\
  (c_stopped c = true -> ~ moving cs) /\ (c_stopped c = false -> moving cs) /\
  stops_once cs /\
  (forall v i, In v (twists cs) -> (i < 6)%nat -> nth i fixed false = true -> nth i v 0 = 0).

Lemma stops_once_app : forall vs P w, stops_once_from P vs ->
  ((~ nonzero w) -> match vs with [] => P | _ => nonzero (last vs []) end) -> stops_once_from P (vs ++ [w]).
Proof.
  induction vs as [|v vs IH]; intros P w H N; cbn [app stops_once_from] in *.
  - tauto.
  - destruct H as [A B]. split; [exact A|]. apply IH; [exact B|]. intro Z. specialize (N Z).
    destruct vs; exact N.
Qed.

Lemma stop_added : forall cs, moving cs -> stops_once cs -> stops_once (cs ++ [STwist zeros6]).
Proof.
  intros cs M H. unfold stops_once in *. rewrite twists_app. apply stops_once_app; [exact H|]. intros _.
  unfold moving in M. destruct (twists cs); [exact (False_ind _ (nonzero_nil M))|exact M].
Qed.
Lemma move_added : forall cs v, nonzero v -> stops_once cs -> stops_once (cs ++ [STwist v]).
Proof. intros cs v M H. unfold stops_once in *. rewrite twists_app. apply stops_once_app; [exact H|]. tauto. Qed.
Lemma act_added : forall cs a, stops_once cs -> stops_once (cs ++ [SAct a]).
Proof. intros cs a H. unfold stops_once in *. rewrite twists_app. cbn. rewrite app_nil_r. exact H. Qed.

Lemma moving_app_twist : forall cs v, moving (cs ++ [STwist v]) <-> nonzero v.
Proof. intros. unfold moving. rewrite twists_app. cbn [twists flat_map app]. rewrite last_last. reflexivity. Qed.
Lemma moving_app_act : forall cs a, moving (cs ++ [SAct a]) <-> moving cs.
Proof. intros. unfold moving. rewrite twists_app. cbn. rewrite app_nil_r. reflexivity. Qed.

Lemma sp_inv_step : forall gain names scaling prox high low nolow cs c i cs' c',
  scaling <> 0 ->
  sp_inv gain (configureFixedAxes names) scaling prox high low nolow cs c -> update c i = Some (cs', c') ->
  sp_inv gain (configureFixedAxes names) scaling prox high low nolow (cs ++ cs') c'.
Proof.
  intros gain names scaling prox high low nolow cs c i cs' c' Hs ((H1 & H2 & H3 & H4 & H5 & H6 & d & D1 & D2 & D3 & D4) & S1 & S2 & SO & FX) U.
  destruct (acquired_dec (u_reading i)) as [Ha|Ha].
  2:{ unfold update in U. rewrite D1 in U. cbn [acquire] in U. rewrite spnav_refused in U by exact Ha. cbn [option_map] in U.
      apply some_inj, pair_inj in U. destruct U; subst cs' c'. rewrite app_nil_r.
      split; [repeat (split; [assumption|]); exists d; auto|]. split; [exact S1|]. split; [exact S2|]. split; assumption. }
  destruct (update_spnav_twist c d i D1 D2 H6 ltac:(congruence) Ha) as (cl & op & d' & _ & _ & E1 & E2 & E3 & _ & _ & HI & LO).
  assert (SH : forall st, sp_shape false gain (configureFixedAxes names) scaling prox high low nolow (set_dev c (DSpnav d') st)).
  { intro st. unfold sp_shape, set_dev. cbn. repeat (split; [assumption|]). exists d'. split; [reflexivity|]. repeat split; congruence. }
  assert (ZF : forall v j, In v (twists (cs ++ [STwist zeros6])) -> (j < 6)%nat -> nth j (configureFixedAxes names) false = true -> nth j v 0 = 0).
  { intros v j I Lj F. rewrite twists_app in I. apply in_app_iff in I. destruct I as [I|[I|[]]]; [eapply FX; eassumption|].
    subst v. unfold zeros6. do 6 (destruct j as [|j]; [reflexivity|]). lia. }
  assert (STOP : forall ac, (ac = [] \/ exists a, ac = [SAct a]) ->
     update c i = Some (ac ++ (if c_stopped c then [] else [STwist zeros6]), set_dev c (DSpnav d') true) ->
     sp_inv gain (configureFixedAxes names) scaling prox high low nolow (cs ++ cs') c').
  { intros ac Hac U'. rewrite U' in U. apply some_inj, pair_inj in U. destruct U as [U1 U2]. subst c' cs'.
    assert (X : stops_once (cs ++ ac) /\ (moving (cs ++ ac) <-> moving cs) /\ twists (cs ++ ac) = twists cs).
    { destruct Hac as [->|[a ->]]; [rewrite app_nil_r; tauto|]. split; [apply act_added, SO|]. split; [apply moving_app_act|].
      rewrite twists_app. cbn. apply app_nil_r. }
    destruct X as (X1 & X2 & X3). rewrite app_assoc.
    split; [apply SH|]. cbn [set_dev c_stopped]. split.
    - intros _. destruct (c_stopped c); [rewrite app_nil_r, X2; auto|]. rewrite moving_app_twist. apply nonzero_zeros.
    - split; [discriminate|]. split.
      + destruct (c_stopped c); [rewrite app_nil_r; exact X1|]. apply stop_added; [apply X2; auto|exact X1].
      + intros v j I. apply ZF. rewrite twists_app in I |- *. rewrite X3 in I. destruct (c_stopped c).
        * cbn [twists flat_map] in I. rewrite app_nil_r in I. apply in_or_app. left. exact I.
        * exact I. }
  destruct (proximity c (u_prox i)) eqn:P.
  3:{ destruct (HI eq_refl) as [_ U']. apply (STOP []); [left; reflexivity|]. exact U'. }
  1,2: (destruct LO as [_ U']; [discriminate|]; cbv zeta in U';
    destruct (Z.eqb (next_actuator cl op (sp_act d)) VOCAB_CC_ACTUATOR_NONE && _)%bool eqn:B; [|
      refine (STOP _ _ U'); destruct (Z.eqb (next_actuator cl op (sp_act d)) VOCAB_CC_ACTUATOR_NONE); [left; reflexivity|right; eexists; reflexivity]];
    apply andb_true_iff in B; destruct B as [_ B]; apply base_valid_nonzero in B;
    rewrite U' in U; apply some_inj, pair_inj in U; destruct U as [U1 U2]; subst c' cs';
    split; [apply SH|]; cbn [set_dev c_stopped];
    split; [discriminate|]; split; [intros _; apply moving_app_twist; exact B|]; split; [apply move_added; assumption|];
    intros v j I Lj F; rewrite twists_app in I; apply in_app_iff in I; destruct I as [I|[I|[]]]; [eapply FX; eassumption|];
    subst v; rewrite D4; apply sp_twist_scaled; [exact Ha|exact Lj|apply fixed_nth; assumption]).
Qed.

Lemma sp_inv_start : forall gain names n scaling prox high low nolow k c,
  spnav_controller false gain names n scaling prox high low nolow k c ->
  sp_inv gain (configureFixedAxes names) scaling prox high low nolow [] c.
Proof.
  intros gain names n scaling prox high low nolow k c (cs & d & I & ->).
  assert (Q : exists cur, d = Spnav false gain (configureFixedAxes names) zeros6 cur false false VOCAB_CC_ACTUATOR_NONE).
  { unfold spnav_initialize in I. cbn [andb] in I. cbv zeta in I. destruct (n_preset n && _)%bool; [discriminate|].
    destruct (negb (n_frame_ok n)); [discriminate|]. apply pair_inj in I. destruct I as [_ I]. apply some_inj in I. subst d. eexists. reflexivity. }
  destruct Q as [cur ->]. unfold sp_inv, sp_shape, configured_sdc. cbn.
  split; [repeat (split; [reflexivity|]); eexists; repeat split; reflexivity|].
  split; [intros _; apply nonzero_nil|]. split; [discriminate|]. split; [exact Logic.I|]. intros v j [].
Qed.
