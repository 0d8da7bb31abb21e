(** The robots with sliding joints of the tests of the library: the problems that the builder returns for them. *)
From Coq Require Import QArith Reals Qreals List Bool Lia Lra.
From Verif Require Import Kdl KdlFacts Screw ScrewFacts Subproblems IkProblem IkSpec Builder BuilderSpec SubproblemSpec2 SubproblemFacts BuilderRun BuilderRunFacts IkPoseSpec IkPoseArms SlideSpec.
Import ListNotations.
Open Scope Q_scope.
Local Notation S := Datatypes.S.

(** ** Recognising them *)
Definition qturns (e : qexp) : bool := match q_motion e with ROTATION => true | TRANSLATION => false end.
Definition qpar (e e' : qexp) : bool := qsame (q_axis e') (q_axis e) || qis0 (qadd (q_axis e') (q_axis e)).
Definition qapart (e : qexp) (x : qvec) : bool :=
  let u := qsub x (q_origin e) in Qle_bool (qeps * qeps) (qdot u u - qdot (q_axis e) u * qdot (q_axis e) u).
Definition qwrist_part (e3 e4 e5 : qexp) (w x y : qvec) : bool :=
  qturns e3 && qturns e4 && qturns e5 && qon e3 w && qon e4 w && qon e5 w && qon e5 x &&
  negb (qis0 (qcross (q_axis e3) (q_axis e4))) && negb (qon e4 x) && negb (qon e5 y).
Definition qsliding (es : list qexp) (r w x y : qvec) : option (list qsubp) :=
  match es with
  | [e0; e1; e2; e3; e4; e5] =>
      if qturns e0 && qturns e1 && negb (qturns e2) && qon e0 r && qon e1 r && negb (qis0 (qcross (q_axis e0) (q_axis e1))) && qwrist_part e3 e4 e5 w x y
      then Some [QPG3 2 e2 w r; QPK2 0 1 e0 e1 w r; QPK2 3 4 e3 e4 x w; QPK1 5 e5 y] else None
  | _ => None
  end.
Definition qlinear (es : list qexp) (w x y : qvec) : option (list qsubp) :=
  match es with
  | [e0; e1; e2; e3; e4; e5] =>
      if negb (qturns e0) && qturns e1 && qturns e2 && qpar e1 e0 && qpar e1 e2 && qapart e1 (q_origin e2) && qwrist_part e3 e4 e5 w x y
      then Some [QPG1 0 e0 w; QPG4 1 2 e1 e2 w; QPK2 3 4 e3 e4 x w; QPK1 5 e5 y] else None
  | _ => None
  end.
Definition qscara (es : list qexp) (w y : qvec) : option (list qsubp) :=
  match es with
  | [e0; e1; e2; e3] =>
      if qturns e0 && qturns e1 && negb (qturns e2) && qturns e3 && qpar e0 e1 && qpar e0 e2 && qpar e0 e3 && qapart e0 (q_origin e1) && qon e3 w && negb (qon e3 y)
      then Some [QPG1 2 e2 w; QPG4 0 1 e0 e1 w; QPK1 3 e3 y] else None
  | _ => None
  end.
Definition qsame_sub (a b : qsubp) : bool :=
  match a, b with
  | QPK1 i e x, QPK1 i' e' x' | QPG1 i e x, QPG1 i' e' x' => Nat.eqb i i' && qsame_exp e e' && qsame x x'
  | QPK2 i j e f x y, QPK2 i' j' e' f' x' y' => Nat.eqb i i' && Nat.eqb j j' && qsame_exp e e' && qsame_exp f f' && qsame x x' && qsame y y'
  | QPG3 i e x y, QPG3 i' e' x' y' => Nat.eqb i i' && qsame_exp e e' && qsame x x' && qsame y y'
  | QPG4 i j e f x, QPG4 i' j' e' f' x' => Nat.eqb i i' && Nat.eqb j j' && qsame_exp e e' && qsame_exp f f' && qsame x x'
  | _, _ => false
  end.
Fixpoint qsame_subs (a b : list qsubp) : bool :=
  match a, b with [], [] => true | x :: a', y :: b' => qsame_sub x y && qsame_subs a' b' | _, _ => false end.
Definition qunits (p : qpoe) : bool := qproper (q_tool p) && forallb (fun e => qunit (q_axis e)) (q_exps p).
Definition qmatches (p : qpoe) (ss : list qsubp) (o : option (list qsubp)) : bool :=
  qunits p && match o with Some ss' => qsame_subs ss ss' | None => false end.

Open Scope R_scope.
Lemma qpar_r : forall e e', qpar e e' = true -> parallel (re e) (re e').
Proof.
  intros e e' H. apply orb_true_iff in H. destruct H as [H|H]; [left|right]; cbn [re e_axis].
  - now apply qsame_r.
  - apply qis0_r in H. rewrite rv_add in H. pose proof (f_equal vx H). pose proof (f_equal vy H). pose proof (f_equal vz H). cbn in *. unfold rv in *. cbn in *. apply vec_eq; cbn; lra.
Qed.
Lemma qapart_r : forall e x, unit (rv (q_axis e)) -> qapart e x = true -> kdl_eps <= away (re e) (rv x).
Proof.
  intros e x U H. apply Qle_bool_iff, Qle_Rle in H. rewrite Q2R_minus, !Q2R_mult, !r_dot, rv_sub, r_eps in H.
  unfold away. cbn [re e_axis e_origin]. unfold norm. rewrite perp_norm2 by exact U.
  rewrite <- (sqrt_square kdl_eps) by (unfold kdl_eps; lra). now apply sqrt_le_1_alt.
Qed.
Lemma qturns_r : forall e, qturns e = true -> e_motion (re e) = ROTATION.
Proof. intros [m a o] H. destruct m; [reflexivity|discriminate]. Qed.
Lemma qslides_r : forall e, qturns e = false -> e_motion (re e) = TRANSLATION.
Proof. intros [m a o] H. destruct m; [discriminate|reflexivity]. Qed.
Lemma qoff_r : forall e x, unit (rv (q_axis e)) -> qon e x = false -> ~ on_axis (re e) (rv x).
Proof. intros e x U Z O. apply (qon_r e x U) in O. congruence. Qed.
Lemma qcross_r : forall e e', qis0 (qcross (q_axis e) (q_axis e')) = false -> cross (e_axis (re e)) (e_axis (re e')) <> vzero.
Proof. intros e e' Z C. cbn [re e_axis] in C. rewrite <- rv_cross in C. apply qis0_r in C. congruence. Qed.
Lemma qsame_sub_r : forall a b, qsame_sub a b = true -> rs a = rs b.
Proof.
  intros a b H. destruct a, b; try discriminate; cbn [qsame_sub] in H; rewrite !andb_true_iff in H; repeat match goal with h : _ /\ _ |- _ => destruct h end;
  repeat match goal with
  | h : qsame_exp _ _ = true |- _ => apply qsame_exp_r in h
  | h : qsame _ _ = true |- _ => apply qsame_r in h
  | h : Nat.eqb _ _ = true |- _ => apply Nat.eqb_eq in h
  end; cbn [rs]; congruence.
Qed.
Lemma qsame_subs_r : forall a b, qsame_subs a b = true -> map rs a = map rs b.
Proof.
  induction a as [|x a IH]; destruct b as [|y b]; cbn [qsame_subs]; intro H; try discriminate; [reflexivity|].
  apply andb_true_iff in H. destruct H as [H1 H2]. cbn [map]. f_equal; [now apply qsame_sub_r|now apply IH].
Qed.
Ltac parts := repeat match goal with h : (_ && _)%bool = true |- _ => apply andb_true_iff in h; destruct h | h : negb _ = true |- _ => apply negb_true_iff in h end.
Ltac gather := repeat match goal with |- _ /\ _ => split end;
  first [apply qturns_r; assumption|apply qslides_r; assumption|apply qpar_r; assumption|apply qcross_r; assumption
        |apply qon_r; [solve [auto 10]|assumption]|apply qoff_r; [solve [auto 10]|assumption]|apply qapart_r; [solve [auto 10]|assumption]].
Lemma qwrist_part_r : forall e3 e4 e5 w x y, unit (rv (q_axis e3)) -> unit (rv (q_axis e4)) -> unit (rv (q_axis e5)) ->
  qwrist_part e3 e4 e5 w x y = true -> wrist_part (re e3) (re e4) (re e5) (rv w) (rv x) (rv y).
Proof. intros e3 e4 e5 w x y U3 U4 U5 H. unfold qwrist_part in H. parts. unfold wrist_part. gather. Qed.
Lemma qunits_r : forall p, qunits p = true -> poe_ok (rp p) /\ forall e, In e (q_exps p) -> unit (rv (q_axis e)).
Proof.
  intros p H. pose proof (proper_ok p H) as OK. split; [exact OK|]. intros e I. destruct OK as [UU _]. cbn [rp exps] in UU. rewrite Forall_map, Forall_forall in UU. exact (UU e I).
Qed.
Lemma sliding_check : forall p ss r w x y, qmatches p ss (qsliding (q_exps p) r w x y) = true ->
  sliding_arm (exps (rp p)) (rv r) (rv w) (rv x) (rv y) /\ map rs ss = sliding_steps (exps (rp p)) (rv r) (rv w) (rv x) (rv y).
Proof.
  intros p ss r w x y H. apply andb_true_iff in H. destruct H as [UN H]. apply qunits_r in UN. destruct UN as [_ UE]. cbn [rp exps]. destruct p as [es T]. cbn [q_exps] in *.
  destruct es as [|e0 [|e1 [|e2 [|e3 [|e4 [|e5 [|]]]]]]]; try discriminate. cbn [qsliding] in H.
  match type of H with match (if ?c then _ else _) with _ => _ end = true => destruct c eqn:C; [|discriminate] end.
  apply qsame_subs_r in H. cbn [map sliding_arm sliding_steps]. split; [|exact H]. parts.
  assert (U : unit (rv (q_axis e0)) /\ unit (rv (q_axis e1)) /\ unit (rv (q_axis e3)) /\ unit (rv (q_axis e4)) /\ unit (rv (q_axis e5))) by (repeat split; apply UE; cbn; auto 10).
  destruct U as (U0 & U1 & U3 & U4 & U5). do 6 (split; [gather|]). now apply qwrist_part_r.
Qed.
Lemma linear_check : forall p ss w x y, qmatches p ss (qlinear (q_exps p) w x y) = true ->
  linear_arm (exps (rp p)) (rv w) (rv x) (rv y) /\ map rs ss = linear_steps (exps (rp p)) (rv w) (rv x) (rv y).
Proof.
  intros p ss w x y H. apply andb_true_iff in H. destruct H as [UN H]. apply qunits_r in UN. destruct UN as [_ UE]. cbn [rp exps]. destruct p as [es T]. cbn [q_exps] in *.
  destruct es as [|e0 [|e1 [|e2 [|e3 [|e4 [|e5 [|]]]]]]]; try discriminate. cbn [qlinear] in H.
  match type of H with match (if ?c then _ else _) with _ => _ end = true => destruct c eqn:C; [|discriminate] end.
  apply qsame_subs_r in H. cbn [map linear_arm linear_steps]. split; [|exact H]. parts.
  assert (U : unit (rv (q_axis e0)) /\ unit (rv (q_axis e1)) /\ unit (rv (q_axis e3)) /\ unit (rv (q_axis e4)) /\ unit (rv (q_axis e5))) by (repeat split; apply UE; cbn; auto 10).
  destruct U as (U0 & U1 & U3 & U4 & U5). do 5 (split; [gather|]). split; [apply qapart_r; assumption|]. now apply qwrist_part_r.
Qed.
Lemma scara_check : forall p ss w y, qmatches p ss (qscara (q_exps p) w y) = true ->
  scara_arm (exps (rp p)) (rv w) (rv y) /\ map rs ss = scara_steps (exps (rp p)) (rv w) (rv y).
Proof.
  intros p ss w y H. apply andb_true_iff in H. destruct H as [UN H]. apply qunits_r in UN. destruct UN as [_ UE]. cbn [rp exps]. destruct p as [es T]. cbn [q_exps] in *.
  destruct es as [|e0 [|e1 [|e2 [|e3 [|]]]]]; try discriminate. cbn [qscara] in H.
  match type of H with match (if ?c then _ else _) with _ => _ end = true => destruct c eqn:C; [|discriminate] end.
  apply qsame_subs_r in H. cbn [map scara_arm scara_steps]. split; [|exact H]. parts.
  assert (U : unit (rv (q_axis e0)) /\ unit (rv (q_axis e3))) by (split; apply UE; cbn; auto 10).
  destruct U as (U0 & U3). do 7 (split; [gather|]). split; [apply qapart_r; assumption|]. gather.
Qed.

(** ** The robots *)
Definition qbuilt (p : qpoe) : option (qpoe * list qsubp) := match qbuild 1000 drawn p with Returns (Some (p', ss, false)) => Some (p', ss) | _ => None end.
Lemma built_r : forall p p' ss, qbuilt p = Some (p', ss) -> build 1000 (map Q2R drawn) (rp p) = Returns (Some (rp p', map rs ss, false)).
Proof.
  intros p p' ss H. rewrite run_build. unfold qbuilt in H. destruct (qbuild 1000 drawn p) as [[[[p0 ss0] b]|]| |]; try discriminate. destruct b; [discriminate|].
  assert (p0 = p' /\ ss0 = ss) as [-> ->] by (split; congruence). reflexivity.
Qed.
Definition built_as (p : qpoe) (o : list qsubp -> bool) : bool := match qbuilt p with Some (p', ss) => o ss | None => false end.
Definition built_same (p : qpoe) : Prop := match qbuilt p with Some (p', ss) => p' = p | None => False end.
Lemma stanford_built : poe_ok (rp stanford) /\ exists r w x y,
  build 1000 (map Q2R drawn) (rp stanford) = Returns (Some (rp stanford, sliding_steps (exps (rp stanford)) r w x y, false)) /\
  sliding_arm (exps (rp stanford)) r w x y.
Proof.
  split; [apply proper_ok; vm_compute; reflexivity|].
  assert (H : built_as stanford (fun ss => qmatches stanford ss (qsliding (q_exps stanford) (QV 0 2 0) (QV 0 5 0) (QV 0 5 (1 # 11)) qzero)) = true) by (vm_compute; reflexivity).
  assert (K : built_same stanford) by (vm_compute; reflexivity). unfold built_as, built_same in *.
  destruct (qbuilt stanford) as [[p' ss]|] eqn:B; [|contradiction]. subst p'.
  apply built_r in B. apply sliding_check in H. destruct H as [A E]. rewrite E in B. do 4 eexists. split; [exact B|exact A].
Qed.
Lemma irb6620lx_built : poe_ok (rp irb6620lx) /\ exists w x y,
  build 1000 (map Q2R drawn) (rp irb6620lx) = Returns (Some (rp irb6620lx, linear_steps (exps (rp irb6620lx)) w x y, false)) /\
  linear_arm (exps (rp irb6620lx)) w x y.
Proof.
  split; [apply proper_ok; vm_compute; reflexivity|].
  assert (H : built_as irb6620lx (fun ss => qmatches irb6620lx ss (qlinear (q_exps irb6620lx) (QV (2643 # 1000) (1613 # 1000) 0) (QV (30073 # 11000) (1613 # 1000) 0) qzero)) = true) by (vm_compute; reflexivity).
  assert (K : built_same irb6620lx) by (vm_compute; reflexivity). unfold built_as, built_same in *.
  destruct (qbuilt irb6620lx) as [[p' ss]|] eqn:B; [|contradiction]. subst p'.
  apply built_r in B. apply linear_check in H. destruct H as [A E]. rewrite E in B. do 3 eexists. split; [exact B|exact A].
Qed.
Lemma irb910sc_built : poe_ok (rp irb910sc) /\ exists w y,
  build 1000 (map Q2R drawn) (rp irb910sc) = Returns (Some (rp irb910sc, scara_steps (exps (rp irb910sc)) w y, false)) /\
  scara_arm (exps (rp irb910sc)) w y.
Proof.
  split; [apply proper_ok; vm_compute; reflexivity|].
  assert (H : built_as irb910sc (fun ss => qmatches irb910sc ss (qscara (q_exps irb910sc) (QV (13 # 20) (-1 # 5) 0) qzero)) = true) by (vm_compute; reflexivity).
  assert (K : built_same irb910sc) by (vm_compute; reflexivity). unfold built_as, built_same in *.
  destruct (qbuilt irb910sc) as [[p' ss]|] eqn:B; [|contradiction]. subst p'.
  apply built_r in B. apply scara_check in H. destruct H as [A E]. rewrite E in B. do 2 eexists. split; [exact B|exact A].
Qed.
