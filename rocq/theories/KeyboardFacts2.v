(** Proofs about keyboardController: Cartesian keys and the invariant of a run. *)
From Coq Require Import Reals List Bool String Ascii ZArith Lra Lia.
From Verif Require Import Kdl KdlFacts KdlRot KdlRotFacts KinRep Vocab Keyboard KeyboardSpec KeyboardFacts.
Import ListNotations.
Open Scope R_scope.
Local Notation S := Datatypes.S.
Local Notation length := List.length.
Local Notation concat := List.concat.

Definition k_step_of (i : nat) : R := if Nat.ltb i 3 then 5 / 1000 else 1 / 100.
Definition next_cv (i : nat) (o : k_op) (s : k_st) : list R := put i (nth i (k_cv s) 0 + sgn o * k_step_of i) (k_cv s).
Definition tiny_all (v : list R) : bool := forallb (fun x => Reqb x 0) (roundZeroes v).
Definition preset (c : k_cfg) : list k_cmd := if k_streaming c then [KPreset VOCAB_CC_POSE] else [].
Inductive cart_view (c : k_cfg) (i : nat) (o : k_op) (e : k_env) (s : k_st) : list k_cmd -> k_st -> Prop :=
| cw_none : forall cs s', k_cart c = false -> stopped c s cs s' (e_act e 0) -> cart_view c i o e s cs s'
| cw_still : forall pre s1, k_cart c = true -> k_thread c = true -> started c e CartMode s pre s1 -> tiny_all (next_cv i o s1) = true ->
    cart_view c i o e s (pre ++ []) (set_ctl CartMode (set_susp true (set_cv (repeat 0 6) s1)))
| cw_movv : forall pre s1 v, k_cart c = true -> k_thread c = false -> started c e CartMode s pre s1 ->
    v = (if tiny_all (next_cv i o s1) then repeat 0 6 else next_cv i o s1) ->
    cart_view c i o e s (pre ++ [KMovv v]) (set_ctl CartMode (set_cv v s1))
| cw_fail : forall pre s1, k_cart c = true -> k_thread c = true -> started c e CartMode s pre s1 -> tiny_all (next_cv i o s1) = false ->
    (k_streaming c = true /\ e_preset e = false) \/ (k_tcp s = false /\ e_stat e = None) ->
    cart_view c i o e s (pre ++ preset c) (set_cv (next_cv i o s1) s1)
| cw_tcp : forall pre s1, k_cart c = true -> k_thread c = true -> started c e CartMode s pre s1 -> tiny_all (next_cv i o s1) = false ->
    k_tcp s = true ->
    cart_view c i o e s (pre ++ preset c)
      (set_ctl CartMode (set_susp false (set_delta (map (fun x => k_period c / 1000 * x) (next_cv i o s1)) (set_cv (next_cv i o s1) s1))))
| cw_base : forall pre s1 x, k_cart c = true -> k_thread c = true -> started c e CartMode s pre s1 -> tiny_all (next_cv i o s1) = false ->
    k_tcp s = false -> e_stat e = Some x ->
    cart_view c i o e s (pre ++ preset c)
      (set_ctl CartMode (set_susp false (set_traj (Some (KLine (vectorToFrame x) (vectorToTwist (next_cv i o s1)) (e_now e))) (set_cv (next_cv i o s1) s1)))).
Lemma started_tcp : forall c e m s pre s1, started c e m s pre s1 -> k_tcp s1 = k_tcp s.
Proof. intros c e m s pre s1 [(_ & _ & ->)|[_ H]]; [reflexivity|apply (st_tcp _ _ _ _ _ H)]. Qed.

Lemma cart_spec : forall c i o e s cs s', cartCommand c i o e s = (cs, s') -> cart_view c i o e s cs s'.
Proof.
  intros c i o e s cs s' H. unfold cartCommand in H.
  destruct (k_cart c) eqn:EC; cbn [negb] in H.
  2:{ apply cw_none; auto. eapply issueStop_spec; eauto. }
  destruct (if negb (is_mode (k_ctl s) CartMode) then issueStop c (e_act e 0) s else ([], s)) as [pre s1] eqn:E1.
  apply start_spec in E1. cbv zeta in H. pose proof (started_tcp _ _ _ _ _ _ E1) as ET.
  rewrite apply_sgn in H. fold (k_step_of i) in H. fold (next_cv i o s1) in H.
  change (k_cv (set_cv (next_cv i o s1) s1)) with (next_cv i o s1) in H.
  change (k_cv (set_cv (repeat 0 6) (set_cv (next_cv i o s1) s1))) with (repeat 0 6) in H.
  change (k_cv (set_cv (repeat 0 6) (set_cv (next_cv i o s1) s1))) with (repeat 0 6) in H.
  fold (tiny_all (next_cv i o s1)) in H.
  destruct (tiny_all (next_cv i o s1)) eqn:EZ.
  - destruct (k_thread c) eqn:ETh; apply k_pair in H; destruct H as [<- <-].
    + rewrite <- (app_nil_r pre). exact (cw_still c i o e s pre s1 EC ETh E1 EZ).
    + refine (cw_movv c i o e s pre s1 _ EC ETh E1 _). rewrite EZ. reflexivity.
  - destruct (k_thread c) eqn:ETh.
    2:{ apply k_pair in H; destruct H as [<- <-]. apply cw_movv; auto. rewrite EZ. reflexivity. }
    unfold thread_configure in H. fold (preset c) in H.
    destruct (k_streaming c) eqn:ES, (e_preset e) eqn:EP; cbn [andb negb] in H.
    2:{ apply k_pair in H; destruct H as [<- <-]. apply cw_fail; auto. }
    all: change (k_tcp (set_cv (next_cv i o s1) s1)) with (k_tcp s1) in H; rewrite ET in H; destruct (k_tcp s) eqn:ETc; cbn [negb] in H;
      [apply k_pair in H; destruct H as [<- <-]; apply cw_tcp; auto|];
      (destruct (e_stat e) as [x|] eqn:EX; cbn [negb] in H; apply k_pair in H; destruct H as [<- <-]; [apply cw_base; auto|apply cw_fail; auto]).
Qed.

(** ** The commands so far and the state *)
Record core (c : k_cfg) (cs : list k_cmd) (s : k_st) : Prop := {
  co_jv : length (k_jv s) = k_axes c;
  co_cv : length (k_cv s) = if k_cart c then 6%nat else 0%nat;
  co_motion : k_cart c = false -> joint_motion cs = None \/ (k_board c = true /\ joint_motion cs = Some (k_jm s));
  co_vel : forall j, nth j (k_jv s) 0 = joint_velocity j cs;
  co_cart : k_ctl s <> CartMode -> at_rest (cart_motion cs);
  co_susp : k_ctl s <> CartMode -> k_susp s = true;
  co_grip : (k_act s = VOCAB_CC_ACTUATOR_NONE /\ gripper_motion cs = VOCAB_CC_ACTUATOR_STOP_GRIPPER) \/
            (k_act s = gripper_motion cs /\ (k_act s = VOCAB_CC_ACTUATOR_OPEN_GRIPPER \/ k_act s = VOCAB_CC_ACTUATOR_CLOSE_GRIPPER));
  co_traj : k_susp s = false -> k_tcp s = false -> k_traj s <> None;
  co_tcp : k_tcp s = k_thread c && Z.eqb (k_fr s) TCP_FRAME;
  co_nocart : k_cart c = false -> k_ctl s <> CartMode;
  co_nothread : k_thread c = false -> k_susp s = true;
  co_board : k_board c = false -> k_axes c = 0%nat;
  co_thread : k_thread c = true -> k_cart c = true }.

Definition quiet (x : k_cmd) : Prop :=
  match x with KPosModes _ | KVelModes _ | KPose _ | KPoseNaN | KPreset _ | KFrame _ => True | _ => False end.
Lemma quiet_folds : forall cs l, Forall quiet l ->
  joint_motion (cs ++ l) = joint_motion cs /\ cart_motion (cs ++ l) = cart_motion cs /\ gripper_motion (cs ++ l) = gripper_motion cs /\
  forall j, joint_velocity j (cs ++ l) = joint_velocity j cs.
Proof.
  intros cs l Q. unfold joint_motion, cart_motion, gripper_motion, joint_velocity.
  assert (forall m v a w, 
    fold_left (fun m c => match c, m with KPosMove _ _, _ => Some JPosition | KVelMove _ _, _ => Some JVelocity
      | KPosStop, Some JPosition => None | KVelStop, Some JVelocity => None | _, _ => m end) l m = m /\
    fold_left (fun m c => match c with KMovv v => v | KStop => [] | _ => m end) l v = v /\
    fold_left (fun m c => match c with KAct a true => a | _ => m end) l a = a /\
    forall j, fold_left (fun v c => match c with KVelMove i w => if Nat.eqb i j then w else v | KPosStop | KVelStop | KStop => 0 | _ => v end) l w = w) as F.
  { induction Q as [|x l QX Q IH]; intros m v a w; [cbn; auto|]. cbn [fold_left].
    destruct (IH m v a w) as (I1 & I2 & I3 & I4).
    destruct x; try contradiction; auto. }
  pose proof (fun m => proj1 (F m [] 0%Z 0)) as F1. pose proof (fun v => proj1 (proj2 (F None v 0%Z 0))) as F2.
  pose proof (fun a => proj1 (proj2 (proj2 (F None [] a 0)))) as F3. pose proof (fun w => proj2 (proj2 (proj2 (F None [] 0%Z w)))) as F4.
  repeat split; intros; rewrite fold_left_app; auto.
Qed.

Lemma core_quiet : forall c cs s l, core c cs s -> Forall quiet l -> core c (cs ++ l) s.
Proof.
  intros c cs s l [] Q. destruct (quiet_folds cs l Q) as (Q1 & Q2 & Q3 & Q4).
  constructor; auto; rewrite ?Q1, ?Q2, ?Q3; auto. intros j. rewrite Q4. auto.
Qed.

Lemma nth_zeros_of : forall n (l : list R) j, l = repeat 0 n -> nth j l 0 = 0.
Proof. intros n l j ->. apply nth_zeros. Qed.
Lemma axes0 : forall (l : list R) n j, length l = n -> n = 0%nat -> nth j l 0 = 0.
Proof. intros l n j E ->. destruct l; [destruct j; reflexivity|discriminate]. Qed.

Lemma core_stopped : forall c cs s c2 s2 ok, core c cs s -> stopped c s c2 s2 ok -> core c (cs ++ c2) s2.
Proof.
  intros c cs s c2 s2 ok C P. pose proof (st_cs _ _ _ _ _ P) as EC.
  assert (k_cart c = false -> k_board c = false -> c2 = []) as EN by (intros A B; rewrite A, B in EC; exact EC).
  constructor.
  - rewrite (st_jv _ _ _ _ _ P). destruct (k_board c); [rewrite repeat_length|]; apply (co_jv _ _ _ C).
  - rewrite (st_cv _ _ _ _ _ P). destruct (k_cart c) eqn:E; [rewrite repeat_length|]; rewrite (co_cv _ _ _ C), E; reflexivity.
  - intros E. rewrite E in EC. rewrite (st_jm _ _ _ _ _ P). unfold joint_motion. rewrite fold_left_app. fold (joint_motion cs).
    rewrite EC. destruct (k_board c) eqn:EB; [|cbn; pose proof (co_motion _ _ _ C E) as M; rewrite EB in M; exact M].
    destruct (co_motion _ _ _ C E) as [-> | [_ ->]]; destruct (k_jm s); cbn; auto.
  - intros j. rewrite (st_jv _ _ _ _ _ P). unfold joint_velocity. rewrite fold_left_app. fold (joint_velocity j cs). rewrite EC.
    destruct (k_cart c) eqn:E1.
    + assert (fold_left (fun (v : R) c0 => match c0 with KVelMove i w => if Nat.eqb i j then w else v | KPosStop | KVelStop | KStop => 0 | _ => v end)
        ((if Z.eqb (k_act s) VOCAB_CC_ACTUATOR_NONE then [] else [KAct VOCAB_CC_ACTUATOR_STOP_GRIPPER ok]) ++ [KStop]) (joint_velocity j cs) = 0) as ->
        by (destruct (Z.eqb (k_act s) VOCAB_CC_ACTUATOR_NONE); reflexivity).
      destruct (k_board c) eqn:E2; [apply nth_zeros|]. apply (axes0 _ _ _ (co_jv _ _ _ C)), (co_board _ _ _ C E2).
    + destruct (k_board c) eqn:E2.
      * rewrite nth_zeros. destruct (k_jm s); reflexivity.
      * cbn. apply (co_vel _ _ _ C).
  - intros _. unfold cart_motion. rewrite fold_left_app. fold (cart_motion cs). rewrite EC.
    destruct (k_cart c) eqn:E1.
    + rewrite fold_left_app. cbn. constructor.
    + destruct (k_board c); [destruct (k_jm s)|]; cbn; apply (co_cart _ _ _ C (co_nocart _ _ _ C E1)).
  - intros _. rewrite (st_susp _ _ _ _ _ P). destruct (k_thread c) eqn:E2.
    + rewrite (co_thread _ _ _ C E2). reflexivity.
    + rewrite andb_false_r. apply (co_nothread _ _ _ C E2).
  - rewrite (st_act _ _ _ _ _ P). unfold gripper_motion. rewrite fold_left_app. fold (gripper_motion cs). rewrite EC.
    pose proof (co_grip _ _ _ C) as G. destruct (k_cart c) eqn:E1; cbn [andb].
    + destruct (Z.eqb (k_act s) VOCAB_CC_ACTUATOR_NONE) eqn:EA.
      * apply Z.eqb_eq in EA. destruct ok; cbn; [|exact G]. left. split; auto. destruct G as [[_ G]|[_ [G|G]]]; [exact G| |]; rewrite EA in G; discriminate G.
      * destruct ok; cbn; [left; auto|exact G].
    + destruct (k_board c); [destruct (k_jm s)|]; cbn; exact G.
  - rewrite (st_susp _ _ _ _ _ P), (st_tcp _ _ _ _ _ P), (st_traj _ _ _ _ _ P).
    destruct (k_cart c && k_thread c); [discriminate|apply (co_traj _ _ _ C)].
  - rewrite (st_tcp _ _ _ _ _ P), (st_fr _ _ _ _ _ P). apply (co_tcp _ _ _ C).
  - intros _. rewrite (st_ctl _ _ _ _ _ P). discriminate.
  - intros E. rewrite (st_susp _ _ _ _ _ P), E, andb_false_r. apply (co_nothread _ _ _ C E).
  - apply (co_board _ _ _ C).
  - apply (co_thread _ _ _ C).
Qed.

Lemma core_started : forall c e m cs s pre s1, core c cs s -> started c e m s pre s1 -> core c (cs ++ pre) s1 /\ k_ctl s1 <> (match m with JointMode => CartMode | _ => JointMode end) /\ k_jm s1 = k_jm s.
Proof.
  intros c e m cs s pre s1 C [(E & -> & ->)|[_ P]].
  - rewrite app_nil_r. split; [exact C|]. split; auto. rewrite E. destruct m; discriminate.
  - split; [eapply core_stopped; eauto|]. split; [rewrite (st_ctl _ _ _ _ _ P); destruct m; discriminate|apply (st_jm _ _ _ _ _ P)].
Qed.

(** a joint motion in the current mode, from a state that is not in Cartesian mode *)
Lemma core_pos : forall c cs s j x, core c cs s -> k_jm s = JPosition -> k_ctl s <> CartMode -> (j < k_axes c)%nat -> core c (cs ++ [KPosMove j x]) s.
Proof.
  intros c cs s j x C J N L. constructor; try apply C; unfold joint_motion, joint_velocity, cart_motion, gripper_motion; try (intros; rewrite fold_left_app; cbn).
  - rewrite J. right. split; auto. destruct (k_board c) eqn:EB; auto. rewrite (co_board _ _ _ C EB) in L. lia.
  - apply (co_vel _ _ _ C).
  - apply (co_cart _ _ _ C N).
  - apply (co_grip _ _ _ C).
Qed.
Lemma core_vel : forall c cs s j v, core c cs s -> k_jm s = JVelocity -> k_ctl s <> CartMode -> (j < k_axes c)%nat ->
  core c (cs ++ [KVelMove j v]) (set_jv (put j v (k_jv s)) s).
Proof.
  intros c cs s j v C J N L. constructor; try apply C; unfold joint_motion, joint_velocity, cart_motion, gripper_motion; try (intros; rewrite fold_left_app; cbn).
  - cbn. rewrite put_length. apply (co_jv _ _ _ C).
  - rewrite J. right. split; auto. destruct (k_board c) eqn:EB; auto. rewrite (co_board _ _ _ C EB) in L. lia.
  - rewrite put_nth. rewrite (co_jv _ _ _ C). apply Nat.ltb_lt in L. rewrite L, andb_true_r. rewrite Nat.eqb_sym.
    destruct (Nat.eqb j j0); auto. apply (co_vel _ _ _ C).
  - apply (co_cart _ _ _ C N).
  - apply (co_grip _ _ _ C).
Qed.
Lemma core_joint_mode : forall c cs s, core c cs s -> k_ctl s <> CartMode -> core c cs (set_ctl JointMode s).
Proof.
  intros c cs s C N. constructor; try apply C; cbn; intros; try discriminate.
  - apply (co_cart _ _ _ C N).
  - apply (co_susp _ _ _ C N).
Qed.

Lemma core_joint : forall c j o e cs s c2 s2, core c cs s -> joint_view c j o e s c2 s2 -> core c (cs ++ c2) s2.
Proof.
  intros c j o e cs s c2 s2 C V. destruct V as [c2 s2 _ P|pre s1 c2 s2 _ _ ST P|pre s1 c2 s2 _ _ _ _ ST P|pre s1 c2 s2 q x _ L J _ _ _ _ ST P|pre s1 c2 s2 _ _ _ _ ST P|pre s1 c2 s2 _ L J _ ST P].
  - eapply core_stopped; eauto.
  - destruct (core_started _ _ _ _ _ _ _ C ST) as (C1 & _). rewrite app_assoc. eapply core_stopped; eauto.
  - destruct (core_started _ _ _ _ _ _ _ C ST) as (C1 & _). rewrite !app_assoc. eapply core_stopped; [|eauto]. apply core_quiet; auto. repeat constructor.
  - destruct (core_started _ _ _ _ _ _ _ C ST) as (C1 & N1 & J1). rewrite !app_assoc.
    assert (core c (((cs ++ pre) ++ [KPosModes (k_axes c)]) ++ [KPosMove j x]) s1) as C2.
    { apply core_pos; auto; [|congruence]. apply core_quiet; auto. repeat constructor. }
    destruct P as [[_ P]|(_ & -> & ->)]; [eapply core_stopped; eauto|]. rewrite app_nil_r. apply core_joint_mode; auto.
  - destruct (core_started _ _ _ _ _ _ _ C ST) as (C1 & _). rewrite !app_assoc. eapply core_stopped; [|eauto]. apply core_quiet; auto. repeat constructor.
  - destruct (core_started _ _ _ _ _ _ _ C ST) as (C1 & N1 & J1). rewrite !app_assoc. cbv zeta in P.
    assert (core c (((cs ++ pre) ++ [KVelModes (k_axes c)]) ++ [KVelMove j (next_vel c j o s1)]) (set_jv (put j (next_vel c j o s1) (k_jv s1)) s1)) as C2.
    { apply core_vel; auto; [|congruence]. apply core_quiet; auto. repeat constructor. }
    destruct P as [[_ P]|(_ & -> & ->)]; [eapply core_stopped; eauto|]. rewrite app_nil_r. apply core_joint_mode; auto.
Qed.

Lemma next_cv_length : forall i o s, length (next_cv i o s) = length (k_cv s).
Proof. intros. apply put_length. Qed.
Lemma preset_quiet : forall c, Forall quiet (preset c).
Proof. intros c. unfold preset. destruct (k_streaming c); repeat constructor. Qed.

Lemma core_cart : forall c i o e cs s c2 s2, core c cs s -> cart_view c i o e s c2 s2 -> core c (cs ++ c2) s2.
Proof.
  intros c i o e cs s c2 s2 C V.
  destruct V as [c2 s2 _ P|pre s1 EC ET ST Z|pre s1 v EC ET ST EV|pre s1 EC ET ST Z F|pre s1 EC ET ST Z T|pre s1 x EC ET ST Z T X].
  - eapply core_stopped; eauto.
  - destruct (core_started _ _ _ _ _ _ _ C ST) as (C1 & _). rewrite app_nil_r.
    constructor; try apply C1; cbn; intros; try congruence. rewrite EC. reflexivity.
  - destruct (core_started _ _ _ _ _ _ _ C ST) as (C1 & _). rewrite app_assoc.
    constructor; try apply C1; unfold joint_motion, joint_velocity, cart_motion, gripper_motion; try (intros; rewrite fold_left_app); cbn; try apply C1; try congruence; auto.
    + rewrite EC, EV. destruct (tiny_all _); [apply repeat_length|]. rewrite next_cv_length, (co_cv _ _ _ C1), EC. reflexivity.
    + exfalso. match goal with H : _ <> CartMode |- _ => apply H; reflexivity end.
  - destruct (core_started _ _ _ _ _ _ _ C ST) as (C1 & _). rewrite app_assoc.
    apply (core_quiet _ _ _ (preset c)) in C1; [|apply preset_quiet].
    constructor; try apply C1; cbn; intros; try congruence. rewrite next_cv_length. apply C1.
  - destruct (core_started _ _ _ _ _ _ _ C ST) as (C1 & _). rewrite app_assoc.
    apply (core_quiet _ _ _ (preset c)) in C1; [|apply preset_quiet].
    pose proof (started_tcp _ _ _ _ _ _ ST) as T1.
    constructor; try apply C1; cbn; intros; try congruence. rewrite next_cv_length. apply C1.
  - destruct (core_started _ _ _ _ _ _ _ C ST) as (C1 & _). rewrite app_assoc.
    apply (core_quiet _ _ _ (preset c)) in C1; [|apply preset_quiet].
    constructor; try apply C1; cbn; intros; try congruence. rewrite next_cv_length. apply C1.
Qed.
