(** Proofs about keyboardController: witnesses. *)
From Coq Require Import Reals List Bool String Ascii ZArith Lra Lia.
From Verif Require Import Kdl KdlFacts KdlRot Trig TrigFacts KdlRotFacts KinRep Vocab StreamFacts6 Keyboard KeyboardSpec KeyboardFacts KeyboardFacts2 KeyboardFacts3 KeyboardFacts4 KeyboardFacts5 KeyboardFacts6 KeyboardFacts7.
Import ListNotations.
Open Scope R_scope.
Local Notation S := Datatypes.S.
Local Notation length := List.length.
Local Notation concat := List.concat.

(** a robot with two joints and a controller; everything answers *)
Definition two_axes (mode : string) : k_robot := KRobot (Some 2%nat) (fun _ => Some (-90, 90)) (fun _ => Some (-5, 10)) mode 20 7.
Definition ctl_plain : k_carto := KCarto (Some (IZR BASE_FRAME)) false 50 None.
Definition ctl_stream (f : Z) : k_carto := KCarto (Some (IZR f)) true 50 (Some true).
Definition fine (x : list R) (now : R) : k_env := KEnv (fun _ => true) true (Some [80; 0]) true true true (Some x) now.
Definition here : list R := [1; 0; 0; 0; 0; 0].
Definition press (k : ascii) : k_event := EKey k (fine here 0).

Lemma abs_pos : forall x, 0 <= x -> Rabs x = x. Proof. intros. apply Rabs_pos_eq. assumption. Qed.
Lemma abs_neg : forall x, x <= 0 -> Rabs x = - x. Proof. intros. apply Rabs_left1. assumption. Qed.
Ltac abs_r := repeat match goal with |- context [Rabs ?x] => first [rewrite (abs_pos x) by lra | rewrite (abs_neg x) by lra] end.

Definition cfg_pos := KCfg true 2 [-90; -90] [90; 90] [10; 10] 20 7 false false 0 false.
Definition st_board jm := KSt NotControlling jm [0; 0] [] VOCAB_CC_ACTUATOR_NONE BASE_FRAME true false [] None false.
Lemma conf_pos : k_configure (Some (two_axes "pos")) None = Some ([KPosStop], cfg_pos, st_board JPosition).
Proof. reflexivity. Qed.
Lemma conf_vel : k_configure (Some (two_axes "vel")) None = Some ([KVelStop], cfg_pos, st_board JVelocity).
Proof. reflexivity. Qed.
Definition cfg_both := KCfg true 2 [-90; -90] [90; 90] [10; 10] 20 7 true false 50 false.
Definition st_both := KSt NotControlling JVelocity [0; 0] [0; 0; 0; 0; 0; 0] VOCAB_CC_ACTUATOR_NONE BASE_FRAME true false [] None false.
Lemma conf_both : k_configure (Some (two_axes "vel")) (Some ctl_plain) = Some ([KStop], cfg_both, st_both).
Proof.
  unfold k_configure, k_configure_cart, ctl_plain. cbn [k_configure_robot two_axes r_axes Nat.ltb Nat.leb]. cbn [c_frame].
  replace (Reqb (IZR BASE_FRAME) (IZR BASE_FRAME)) with true by (symmetry; apply Reqb_true; reflexivity). reflexivity.
Qed.
Definition cfg_stream := KCfg false 0 [] [] [] 0 0 true true 50 true.
Definition st_stream f := KSt NotControlling JVelocity [] [0; 0; 0; 0; 0; 0] VOCAB_CC_ACTUATOR_NONE f true (Z.eqb f TCP_FRAME) [] None false.
Lemma conf_stream : forall f, f = BASE_FRAME \/ f = TCP_FRAME -> k_configure None (Some (ctl_stream f)) = Some ([KStop], cfg_stream, st_stream f).
Proof.
  intros f F. unfold k_configure, k_configure_cart, ctl_stream. cbn [k_configure_robot c_frame].
  destruct F as [-> | ->].
  - replace (Reqb (IZR BASE_FRAME) (IZR BASE_FRAME)) with true by (symmetry; apply Reqb_true; reflexivity). reflexivity.
  - replace (Reqb (IZR TCP_FRAME) (IZR BASE_FRAME)) with false.
    + replace (Reqb (IZR TCP_FRAME) (IZR TCP_FRAME)) with true by (symmetry; apply Reqb_true; reflexivity). reflexivity.
    + symmetry. apply Reqb_false. intros E. apply eq_IZR in E. discriminate E.
Qed.

Lemma still_moving : exists css s', k_run cfg_both [press "1"; press "013"] st_both = Some (css, s') /\
  concat css = [KStop; KVelModes 2; KVelMove 0 7; KStop].
Proof.
  eexists; eexists. unfold k_run, k_step, press, pressKey, jointCommand. cbn -[Rltb Rabs].
  replace (Rltb 10 (Rabs (0 + 7))) with false by (symmetry; apply Rltb_false; abs_r; lra).
  cbn. split; [reflexivity|]. cbn. replace (0 + 7) with 7 by ring. reflexivity.
Qed.

(** the module does not stop joints when there is a Cartesian controller too *)
Lemma joint_not_stopped : exists r a cs0 c s evs k e css s', k_configure (Some r) (Some a) = Some (cs0, c, s) /\ running evs /\ stop_key k /\
  k_run c (evs ++ [EKey k e]) s = Some (css, s') /\ joint_motion (cs0 ++ concat css) = Some JVelocity.
Proof.
  destruct still_moving as (css & s' & R & E).
  exists (two_axes "vel"), ctl_plain, [KStop], cfg_both, st_both, [press "1"], "013"%char, (fine here 0), css, s'.
  split; [apply conf_both|]. split; [constructor; auto; discriminate|]. split; [unfold stop_key; cbn; intuition discriminate|]. split; [exact R|].
  rewrite E. reflexivity.
Qed.
Definition st_joint := KSt JointMode JVelocity [7; 0] [0; 0; 0; 0; 0; 0] VOCAB_CC_ACTUATOR_NONE BASE_FRAME true false [] None false.
Lemma first_step : k_step cfg_both (press "1") st_both = Some ([KStop; KVelModes 2; KVelMove 0 7], st_joint).
Proof.
  unfold k_step, press, pressKey, jointCommand. cbn -[Rltb Rabs].
  replace (Rltb 10 (Rabs (0 + 7))) with false by (symmetry; apply Rltb_false; abs_r; lra). cbn. replace (0 + 7) with 7 by ring. reflexivity.
Qed.
Lemma cart_a : forall s, k_ctl s <> CartMode -> k_act s = VOCAB_CC_ACTUATOR_NONE -> k_over s = false -> length (k_cv s) = 6%nat ->
  exists s', k_step cfg_both (press "a") s = Some ([KStop; KMovv [5 / 1000; 0; 0; 0; 0; 0]], s').
Proof.
  intros s N A O L. destruct (cartCommand cfg_both 0 Inc (fine here 0) s) as [cs s'] eqn:E. exists s'. unfold k_step, press. rewrite O.
  change (pressKey cfg_both "a" (fine here 0) s) with (Some (cartCommand cfg_both 0 Inc (fine here 0) s)). rewrite E. f_equal. f_equal. apply cart_spec in E.
  destruct E as [c2 s2 F P|pre s2 EC ET ST5 Z|pre s2 v EC ET ST EV|pre s2 EC ET ST5 Z F|pre s2 EC ET ST5 Z T|pre s2 x0 EC ET ST5 Z T X]; try discriminate.
  destruct ST as [(F & _)|[_ P]]; [congruence|]. pose proof (st_cs _ _ _ _ _ P) as EP. rewrite A in EP. cbn in EP. subst pre.
  assert (k_cv s2 = velocity (fun _ => 0%Z)) as EZ.
  { rewrite (st_cv _ _ _ _ _ P), L. symmetry. apply velocity_zero. intros i _. reflexivity. }
  assert (next_cv 0 Inc s2 = velocity (bump 0 1 (fun _ => 0%Z))) as EN by (unfold next_cv; rewrite EZ; apply velocity_next; lia).
  rewrite EN in EV. destruct (tiny_all (velocity (bump 0 1 (fun _ => 0%Z)))) eqn:ET'.
  - apply tiny_velocity in ET'. specialize (ET' 0%nat ltac:(lia)). discriminate ET'.
  - subst v. unfold velocity, bump. cbn [Nat.eqb Z.add]. rewrite !Rmult_0_l, Rmult_1_l. reflexivity.
Qed.
Lemma moving_twice : exists css s', k_run cfg_both [press "1"; press "a"] st_both = Some (css, s') /\
  concat css = [KStop; KVelModes 2; KVelMove 0 7; KStop; KMovv [5 / 1000; 0; 0; 0; 0; 0]].
Proof.
  destruct (cart_a st_joint) as [s' E]; [discriminate|reflexivity|reflexivity|reflexivity|].
  exists [[KStop; KVelModes 2; KVelMove 0 7]; [KStop; KMovv [5 / 1000; 0; 0; 0; 0; 0]]], s'.
  split; [|reflexivity]. cbn [k_run]. rewrite first_step, E. reflexivity.
Qed.
Lemma joint_to_cart : exists r a cs0 c s evs css s' l1 v l2, k_configure (Some r) (Some a) = Some (cs0, c, s) /\ running evs /\
  k_run c evs s = Some (css, s') /\ cs0 ++ concat css = l1 ++ KMovv v :: l2 /\ ~ at_rest v /\ joint_motion l1 = Some JVelocity.
Proof.
  destruct moving_twice as (css & s' & R & E).
  exists (two_axes "vel"), ctl_plain, [KStop], cfg_both, st_both, [press "1"; press "a"], css, s'.
  exists [KStop; KStop; KVelModes 2; KVelMove 0 7; KStop], [5 / 1000; 0; 0; 0; 0; 0], [].
  split; [apply conf_both|]. split; [repeat constructor; discriminate|]. split; [exact R|]. split; [rewrite E; reflexivity|]. split; [|reflexivity].
  intros A. inversion A. lra.
Qed.

(** the minimum velocity is not looked at *)
Lemma too_fast : exists css s', k_run cfg_pos [press "q"] (st_board JVelocity) = Some (css, s') /\ concat css = [KVelStop; KVelModes 2; KVelMove 0 (-7)].
Proof.
  eexists; eexists. unfold k_run, k_step, press, pressKey, jointCommand. cbn -[Rltb Rabs].
  replace (Rltb 10 (Rabs (0 - 7))) with false by (symmetry; apply Rltb_false; abs_r; lra).
  cbn. split; [reflexivity|]. cbn. replace (0 - 7) with (-7) by ring. reflexivity.
Qed.
Lemma below_minimum : exists r cs0 c s evs css s' j v lo hi, k_configure (Some r) None = Some (cs0, c, s) /\ k_run c evs s = Some (css, s') /\
  In (KVelMove j v) (concat css) /\ r_vlimits r j = Some (lo, hi) /\ lo < 0 < hi /\ v < lo.
Proof.
  destruct too_fast as (css & s' & R & E).
  exists (two_axes "vel"), [KVelStop], cfg_pos, (st_board JVelocity), [press "q"], css, s', 0%nat, (-7), (-5), 10.
  split; [apply conf_vel|]. split; [exact R|]. split; [rewrite E; cbn; auto|]. split; [reflexivity|]. lra.
Qed.
(** ... and limits in the wrong order are undefined behaviour *)
Lemma wrong_order : exists r cs0 c s evs, k_configure (Some r) None = Some (cs0, c, s) /\ k_run c evs s = None.
Proof.
  exists (KRobot (Some 1%nat) (fun _ => Some (1, -1)) (fun _ => Some (-5, 10)) "pos" 20 7).
  eexists; eexists; eexists. exists [press "1"]. split; [reflexivity|].
  unfold k_run, k_step, press, pressKey, jointCommand. cbn -[Rltb Rabs].
  replace (Rltb (80 + 20) 1) with false by (symmetry; apply Rltb_false; lra). replace (Rltb (-1) (80 + 20)) with true by (symmetry; apply Rltb_true; lra).
  replace (Rltb (-1) 1) with true by (symmetry; apply Rltb_true; lra). reflexivity.
Qed.

(** ** Runs that meet the hypotheses *)
Lemma pos_run : exists css s', k_run cfg_pos [press "1"; press "q"] (st_board JPosition) = Some (css, s') /\
  concat css = [KPosStop; KPosModes 2; KPosMove 0 90; KPosModes 2; KPosMove 0 60].
Proof.
  eexists; eexists. unfold k_run, k_step, press, pressKey, jointCommand. cbn -[Rltb Rabs].
  replace (Rltb (80 + 20) (-90)) with false by (symmetry; apply Rltb_false; lra). replace (Rltb 90 (80 + 20)) with true by (symmetry; apply Rltb_true; lra).
  replace (Rltb 90 (-90)) with false by (symmetry; apply Rltb_false; lra). cbn -[Rltb Rabs].
  replace (Rltb (80 - 20) (-90)) with false by (symmetry; apply Rltb_false; lra). replace (Rltb 90 (80 - 20)) with false by (symmetry; apply Rltb_false; lra).
  cbn. split; [reflexivity|]. cbn. replace (80 - 20) with 60 by ring. reflexivity.
Qed.
Lemma vel_run : exists css s', k_run cfg_pos [press "1"; press "1"] (st_board JVelocity) = Some (css, s') /\
  concat css = [KVelStop; KVelModes 2; KVelMove 0 7; KVelModes 2; KVelMove 0 10].
Proof.
  eexists; eexists. unfold k_run, k_step, press, pressKey, jointCommand. cbn -[Rltb Rabs].
  replace (Rltb 10 (Rabs (0 + 7))) with false by (symmetry; apply Rltb_false; abs_r; lra). cbn -[Rltb Rabs].
  replace (Rltb 10 (Rabs (0 + 7 + 7))) with true by (symmetry; apply Rltb_true; abs_r; lra).
  cbn. split; [reflexivity|]. cbn. replace (0 + 7) with 7 by ring. replace ((0 + 1) * 10) with 10 by ring. reflexivity.
Qed.

Definition one_a : nat -> Z := bump 0 1 (fun _ => 0%Z).
Lemma key_a : cart_key "a" 0 1. Proof. left. split; reflexivity. Qed.
Lemma presses_a : forall b, presses b ([] ++ [press "a"]) one_a.
Proof. intros b. exact (pr_cart b [] "a"%char _ 0 1%Z _ (pr_none b) key_a). Qed.
Lemma moves_a : ~ zero_n one_a.
Proof. intros Z. specialize (Z 0%nat ltac:(lia)). discriminate Z. Qed.
Lemma answers_a : answering ([] ++ [press "a"]).
Proof. repeat constructor. discriminate. Qed.
Lemma norms_a : norm (plist (velocity one_a)) <= 10 /\ norm (rlist (velocity one_a)) <= 29 / 10.
Proof.
  unfold norm, dot, plist, rlist, velocity, one_a, bump. cbn. split.
  - replace (_ + _ + _) with ((5 / 1000) * (5 / 1000)) by ring. rewrite sqrt_square; lra.
  - replace (_ + _ + _) with 0 by ring. rewrite sqrt_0. lra.
Qed.
Lemma stream_runs : forall f t, f = BASE_FRAME \/ f = TCP_FRAME -> exists css s', k_run cfg_stream (([] ++ [press "a"]) ++ [] ++ [ETick t]) (st_stream f) = Some (css, s').
Proof.
  intros f t F. destruct (k_run cfg_stream (([] ++ [press "a"]) ++ [] ++ [ETick t]) (st_stream f)) as [[css s']|] eqn:E; [eauto|].
  exfalso. revert E. apply (total _ _ _ _ _ _ (conf_stream f F)). discriminate.
Qed.
