(** Proofs about haarDetectionController. *)
From Coq Require Import Reals Lra Lia List Bool ZArith.
From Verif Require Import Kdl KdlFacts Vocab Haar HaarSpec.
Import ListNotations.
Open Scope R_scope.
Local Notation S := Datatypes.S.

Definition force_from (m : option (list R)) (cs : list h_cmd) : option (list R) :=
  fold_left (fun m c => match c with HTwist v => Some v | HStop => None | _ => m end) cs m.
Lemma force_app : forall a b m, force_from m (a ++ b) = force_from (force_from m a) b.
Proof. intros. unfold force_from. apply fold_left_app. Qed.

Lemma reads_closed : forall bs s, m_port s = false -> h_reads s bs = ([], s).
Proof.
  induction bs as [|b bs IH]; intros [se po g] P; [reflexivity|]. cbn in P. subst po. cbn [h_reads h_read m_port m_grabber m_sensors]. rewrite IH by reflexivity. reflexivity.
Qed.
Lemma grasp_closed : forall ps s, m_port s = false -> h_grasp s ps = (repeat (HAct VOCAB_CC_ACTUATOR_CLOSE_GRIPPER) (List.length ps), s).
Proof. induction ps as [|bs ps IH]; intros s P; [reflexivity|]. cbn [h_grasp]. rewrite reads_closed, IH by exact P. reflexivity. Qed.
Lemma update_eq : forall s target passes, h_update s target passes = if m_sensors s && target
  then (false, HStop :: repeat (HAct VOCAB_CC_ACTUATOR_CLOSE_GRIPPER) (List.length passes), HSt false false (m_grabber s)) else (true, [], s).
Proof. intros. unfold h_update. rewrite grasp_closed by reflexivity. reflexivity. Qed.

(** what a pair of numbers asks for *)
Definition asked (approach : bool) (xy : option (R * R)) : option (list R) :=
  match xy with
  | None => None
  | Some (x, y) => if Reqb x 0 && Reqb y 0 then None else Some [x * / 10000; - (y * / 10000); if approach then / 100 else 0; 0; 0; 0]
  end.

Lemma abs_pos : forall x, Rltb 0 (Rabs x) = negb (Reqb x 0).
Proof.
  intro x. destruct (Reqb x 0) eqn:E; cbn.
  - apply Reqb_true in E. subst. rewrite Rabs_R0. apply Rltb_false. lra.
  - apply Reqb_false in E. apply Rltb_true. now apply Rabs_pos_lt.
Qed.

Lemma onRead_spec : forall g x y m, (m = None <-> g_stopped g = true) ->
  let '(cs, g') := onRead g [x; y] in
  force_from m cs = asked (negb (g_noApproach g)) (Some (x, y)) /\ g_noApproach g' = g_noApproach g /\
  (force_from m cs = None <-> g_stopped g' = true).
Proof.
  intros [st na] x y m H. cbn in H. unfold onRead, asked. rewrite !abs_pos. cbn [g_noApproach g_stopped].
  destruct (Reqb x 0) eqn:Ex, (Reqb y 0) eqn:Ey; cbn.
  - destruct st; cbn; [destruct (proj2 H eq_refl); intuition|intuition].
  - apply Reqb_true in Ex. subst x. replace (0 * / 10000) with 0 by ring. destruct na; intuition discriminate.
  - apply Reqb_true in Ey. subst y. replace (0 * / 10000) with 0 by ring. destruct na; intuition discriminate.
  - destruct na; intuition discriminate.
Qed.

(** C95 *)
Lemma run_gen : forall evs s m r, m_port s = true -> (forall n, ~ In (HUpdate true n) evs) -> (m = None <-> g_stopped (m_grabber s) = true) ->
  m = asked (negb (g_noApproach (m_grabber s))) r ->
  force_from m (h_run s evs) =
  asked (negb (g_noApproach (m_grabber s))) (fold_left (fun m e => match e with HRead [x; y] => Some (x, y) | _ => m end) evs r).
Proof.
  induction evs as [|ev evs IH]; intros s m r P T H E; [exact E|].
  assert (T' : forall n, ~ In (HUpdate true n) evs) by (intros n I; apply (T n); now right).
  destruct ev as [b|target passes]; cbn [h_run fold_left]; unfold h_read.
  - rewrite P. destruct b as [|x [|y [|]]].
    1,2,4: apply (IH (HSt (m_sensors s) true (m_grabber s))); auto.
    pose proof (onRead_spec (m_grabber s) x y m H) as O. destruct (onRead (m_grabber s) [x; y]) as [cs g]. destruct O as (O1 & O2 & O3).
    rewrite force_app. rewrite <- O2. apply (IH (HSt (m_sensors s) true g)); auto. cbn. now rewrite O1, O2.
  - rewrite update_eq. destruct target; [now elim (T passes (or_introl eq_refl))|]. rewrite andb_false_r.
    change ([] ++ h_run s evs) with (h_run s evs). now apply IH.
Qed.

Lemma follows : forall e cs0 s evs, h_configure e = (cs0, Some s) -> h_noMove e = false -> (h_sensors e = true -> ~ target_seen evs) ->
  in_force (cs0 ++ h_run s evs) =
  match last_reading evs with
  | None => None
  | Some (x, y) => if Req_EM_T x 0 then if Req_EM_T y 0 then None else Some [x * / 10000; - (y * / 10000); if h_noApproach e then 0 else / 100; 0; 0; 0]
                   else Some [x * / 10000; - (y * / 10000); if h_noApproach e then 0 else / 100; 0; 0; 0]
  end.
Proof.
  intros e cs0 s evs C NM T. unfold h_configure in C.
  destruct (e_cartesian e); [|discriminate]. cbn [negb] in C. destruct (h_sensors e && negb (e_sensors e)); [discriminate|].
  destruct (e_act e); [|discriminate]. cbn [negb] in C. rewrite NM in C. destruct (e_frame e); [|discriminate]. destruct (e_connect e); [|discriminate].
  cbn in C. injection C as <- <-.
  assert (G : forall a evs s, m_sensors s = false -> force_from a (h_run s evs) =
    force_from a (h_run s (filter (fun ev => match ev with HRead _ => true | _ => false end) evs))).
  { clear. intros a evs. revert a. induction evs as [|ev evs IH]; intros a s E; [reflexivity|]. destruct ev as [b|t n]; cbn [h_run filter]; unfold h_read.
    - destruct (m_port s); [destruct (onRead (m_grabber s) b) as [cs g]; rewrite !force_app|]; apply IH; exact E.
    - rewrite update_eq. rewrite E. cbn [andb app]. apply IH. exact E. }
  unfold in_force. match goal with |- fold_left ?f ?l None = _ => change (fold_left f l None) with (force_from None l) end.
  rewrite force_app. change (force_from None [HAct VOCAB_CC_ACTUATOR_OPEN_GRIPPER; HFrame TCP_FRAME]) with (@None (list R)).
  assert (X : force_from None (h_run (HSt (h_sensors e) true (Grabber true (h_noApproach e))) evs) = asked (negb (h_noApproach e)) (last_reading evs)).
  { destruct (h_sensors e) eqn:Es.
    - apply (run_gen evs (HSt true true (Grabber true (h_noApproach e))) None None); cbn; auto; [|tauto].
      intros n I. apply (T eq_refl). now exists n.
    - rewrite G by reflexivity.
      assert (L : last_reading evs = last_reading (filter (fun ev => match ev with HRead _ => true | _ => false end) evs)).
      { clear. unfold last_reading. generalize (@None (R * R)). induction evs as [|ev evs IH]; intro o; [reflexivity|].
        destruct ev as [b|t n]; cbn; apply IH. }
      rewrite L. apply (run_gen _ (HSt false true (Grabber true (h_noApproach e))) None None); cbn; auto; [|tauto].
      intros n I. apply filter_In in I. destruct I; discriminate. }
  rewrite X. destruct (last_reading evs) as [[x y]|]; [|reflexivity]. cbn.
  destruct (Req_EM_T x 0) as [Hx|Hx]; [rewrite (proj2 (Reqb_true x 0) Hx)|rewrite (proj2 (Reqb_false x 0) Hx)];
  (destruct (Req_EM_T y 0) as [Hy|Hy]; [rewrite (proj2 (Reqb_true y 0) Hy)|rewrite (proj2 (Reqb_false y 0) Hy)]); cbn; destruct (h_noApproach e); reflexivity.
Qed.

(** C96 *)
Lemma force_acts : forall a n m, force_from m (repeat (HAct a) n) = m.
Proof. induction n; intro m; [reflexivity|]. cbn. apply IHn. Qed.
Lemma ends_at_rest : forall evs s m, force_from m (fst (h_life s evs)) = None.
Proof.
  induction evs as [|ev evs IH]; intros s m; [reflexivity|]. destruct ev as [b|t n]; cbn [h_life]; unfold h_read.
  - destruct (if m_port s then onRead (m_grabber s) b else ([], m_grabber s)) as [cs g]. specialize (IH (HSt (m_sensors s) (m_port s) g)).
    destruct (h_life _ evs) as [cs' r]. cbn [fst] in *. rewrite force_app. apply IH.
  - rewrite update_eq. destruct (m_sensors s && t); cbn; [apply force_acts|]. 
    specialize (IH s m). destruct (h_life s evs) as [cs' r]. exact IH.
Qed.
Lemma at_rest : forall e cs0 s evs, h_configure e = (cs0, Some s) -> in_force (cs0 ++ fst (h_life s evs)) = None.
Proof.
  intros. unfold in_force. match goal with |- fold_left ?f ?l None = _ => change (fold_left f l None) with (force_from None l) end.
  rewrite force_app. apply ends_at_rest.
Qed.

Lemma onRead_kinds : forall g b c, In c (fst (onRead g b)) -> (exists v, c = HTwist v) \/ c = HStop.
Proof.
  intros g b c I. destruct b as [|x [|y [|]]]; try contradiction. unfold onRead in I.
  destruct (Rltb 0 (Rabs x)), (Rltb 0 (Rabs y)), (g_stopped g); cbn in I; destruct I as [<-|[]] || contradiction; eauto.
Qed.

Lemma life_shape : forall evs s, m_sensors s = true ->
  (exists before n after, evs = before ++ HUpdate true n :: after /\ ~ target_seen before /\ 
     h_life s evs = (h_run s before ++ HStop :: repeat (HAct VOCAB_CC_ACTUATOR_CLOSE_GRIPPER) (List.length n), true)) \/
  (~ target_seen evs /\ h_life s evs = (h_run s evs ++ [HStop], false)).
Proof.
  induction evs as [|ev evs IH]; intros s E; [right; split; [intros [n []]|reflexivity]|].
  destruct ev as [b|t n]; cbn [h_life h_run]; unfold h_read.
  - destruct (if m_port s then onRead (m_grabber s) b else ([], m_grabber s)) as [cs g] eqn:Eg.
    destruct (IH (HSt (m_sensors s) (m_port s) g) E) as [(bf & n & af & -> & T & L)|[T L]]; rewrite L; cbn.
    + left. exists (HRead b :: bf), n, af. split; [reflexivity|]. split.
      * intros [k [H|I]]; [discriminate|]. apply T. now exists k.
      * cbn; unfold h_read. rewrite Eg. now rewrite <- app_assoc.
    + right. split; [|now rewrite <- app_assoc]. intros [k [H|I]]; [discriminate|]. apply T. now exists k.
  - rewrite update_eq. rewrite E. destruct t; cbn [andb].
    + left. exists [], n, evs. split; [reflexivity|]. split; [intros [k []]|reflexivity].
    + destruct (IH s E) as [(bf & k & af & -> & T & L)|[T L]]; rewrite L; cbn.
      * left. exists (HUpdate false n :: bf), k, af. split; [reflexivity|]. split.
        -- intros [j [H|I]]; [discriminate|]. apply T. now exists j.
        -- cbn. rewrite update_eq. rewrite E. reflexivity.
      * right. split; [|reflexivity]. intros [k [H|I]]; [discriminate|]. apply T. now exists k.
Qed.
Lemma run_no_act : forall evs s a, ~ target_seen evs -> ~ In (HAct a) (h_run s evs).
Proof.
  induction evs as [|ev evs IH]; intros s a T I; [contradiction|].
  assert (T' : ~ target_seen evs) by (intros [n H]; apply T; exists n; now right).
  destruct ev as [b|t n]; cbn [h_run] in I; unfold h_read in I.
  - destruct (m_port s); [pose proof (onRead_kinds (m_grabber s) b) as K; destruct (onRead (m_grabber s) b) as [cs g]|].
    + apply in_app_iff in I. destruct I as [I|I]; [|now apply IH in I]. destruct (K _ I) as [[v H]|H]; discriminate.
    + now apply IH in I.
  - rewrite update_eq in I. destruct t; [elim T; exists n; now left|]. rewrite andb_false_r in I. now apply IH in I.
Qed.
Lemma grasp : forall e cs0 s evs, h_configure e = (cs0, Some s) -> h_sensors e = true ->
  (exists before n after, evs = before ++ HUpdate true n :: after /\
     h_life s evs = (h_run s before ++ HStop :: repeat (HAct VOCAB_CC_ACTUATOR_CLOSE_GRIPPER) (List.length n), true) /\
     forall a, ~ In (HAct a) (h_run s before)) \/
  (~ target_seen evs /\ h_life s evs = (h_run s evs ++ [HStop], false) /\ forall a, ~ In (HAct a) (h_run s evs)).
Proof.
  intros e cs0 s evs C Es.
  assert (M : m_sensors s = true).
  { unfold h_configure in C. repeat match type of C with context [if ?b then _ else _] => destruct b end; try discriminate; cbn in C; injection C as <- <-; exact Es. }
  destruct (life_shape evs s M) as [(bf & n & af & -> & T & L)|[T L]].
  - left. exists bf, n, af. split; [reflexivity|]. split; [exact L|]. intro a. now apply run_no_act.
  - right. split; [exact T|]. split; [exact L|]. intro a. now apply run_no_act.
Qed.
Lemma no_move : forall e cs0 s evs v, h_configure e = (cs0, Some s) -> h_noMove e = true -> ~ In (HTwist v) (cs0 ++ fst (h_life s evs)).
Proof.
  intros e cs0 s evs v C NM.
  assert (P : m_port s = false /\ ~ In (HTwist v) cs0).
  { unfold h_configure in C. rewrite NM in C. repeat match type of C with context [if ?b then _ else _] => destruct b end; try discriminate; cbn in C; injection C as <- <-;
      (split; [reflexivity|]); cbn; intros [H|H]; try discriminate; contradiction. }
  destruct P as [P Q]. intro I. apply in_app_iff in I. destruct I as [I|I]; [contradiction|]. clear - P I.
  revert s P I. induction evs as [|ev evs IH]; intros s P I; [cbn in I; destruct I as [H|[]]; discriminate|].
  destruct ev as [b|t n]; cbn [h_life] in I; unfold h_read in I.
  - rewrite P in I. specialize (IH (HSt (m_sensors s) false (m_grabber s)) eq_refl). destruct (h_life _ evs) as [cs r]. now apply IH.
  - rewrite update_eq in I. destruct (m_sensors s && t); cbn in I.
    + destruct I as [H|I]; [discriminate|]. apply repeat_spec in I. discriminate.
    + specialize (IH s P). destruct (h_life s evs) as [cs r]. now apply IH.
Qed.
Lemma failed : forall e cs0 v, h_configure e = (cs0, None) -> ~ In (HTwist v) cs0.
Proof.
  intros e cs0 v C I. unfold h_configure in C.
  repeat match type of C with context [if ?b then _ else _] => destruct b end; try discriminate; cbn in C; injection C as <-; cbn in I; intuition discriminate.
Qed.
Lemma frame_first : forall e cs0 s evs v, h_configure e = (cs0, Some s) -> In (HTwist v) (h_run s evs) -> In (HFrame TCP_FRAME) cs0.
Proof.
  intros e cs0 s evs v C I. destruct (h_noMove e) eqn:NM.
  - exfalso. assert (P : m_port s = false).
    { unfold h_configure in C. rewrite NM in C. repeat match type of C with context [if ?b then _ else _] => destruct b end; try discriminate; cbn in C; injection C as <- <-; reflexivity. }
    clear - P I. revert s P I. induction evs as [|ev evs IH]; intros s P I; [contradiction|]. destruct ev as [b|t n]; cbn [h_run] in I; unfold h_read in I.
    + rewrite P in I. now apply (IH (HSt (m_sensors s) false (m_grabber s)) eq_refl).
    + rewrite update_eq in I. destruct (m_sensors s && t); cbn in I; [destruct I as [H|I]; [discriminate|apply repeat_spec in I; discriminate]|now apply (IH s)].
  - unfold h_configure in C. rewrite NM in C. repeat match type of C with context [if ?b then _ else _] => destruct b end; try discriminate; cbn in C; injection C as <- <-.
    cbn. tauto.
Qed.

(** an accepted configuration with a sensor *)
Definition all_fine : h_env := HEnv true false false true true true true true.
Lemma fine_open : h_configure all_fine = ([HAct VOCAB_CC_ACTUATOR_OPEN_GRIPPER; HFrame TCP_FRAME], Some (HSt true true (Grabber true false))).
Proof. reflexivity. Qed.
