(** The robots of the tests of the library: the problems that the builder returns for them. *)
From Coq Require Import QArith Reals Qreals List Bool Lia Lra.
From Verif Require Import Kdl KdlFacts Screw ScrewFacts Subproblems IkProblem IkSpec IkProblemFacts IkProblemFacts2 IkProblemFacts3 Builder BuilderSpec SubproblemSpec2 SubproblemFacts6 BuilderRun BuilderRunFacts IkPoseSpec.
Import ListNotations.
Open Scope Q_scope.
Local Notation S := Datatypes.S.

Local Notation Rot a o := (QE ROTATION a o).
Local Notation Tra a := (QE TRANSLATION a qzero).
Definition qat (p : qvec) : qframe := QF (QV 1 0 0) (QV 0 1 0) (QV 0 0 1) p.
(** tests/testScrewTheory.cpp 62-75, 92-105, 126-139, 160-173 *)
Definition teo_arm : qpoe :=
  QP [Rot (QV 0 0 1) qzero; Rot (QV 0 1 0) qzero; Rot (QV 1 0 0) qzero; Rot (QV 0 0 1) (QV (-32901 # 100000) 0 0);
      Rot (QV 1 0 0) (QV (-32901 # 100000) 0 0); Rot (QV 0 0 1) (QV (-54401 # 100000) 0 0)] (qat (QV (-63401 # 100000) 0 0)).
Definition teo_leg : qpoe :=
  QP [Rot (QV 0 0 1) qzero; Rot (QV 0 (-1) 0) qzero; Rot (QV 1 0 0) qzero; Rot (QV 1 0 0) (QV 0 0 (-33 # 100));
      Rot (QV 1 0 0) (QV (175 # 10000) 0 (-63 # 100)); Rot (QV 0 (-1) 0) (QV (175 # 10000) 0 (-63 # 100))]
    (QF (QV 0 (-1) 0) (QV 0 0 (-1)) (QV 1 0 0) (QV (175 # 10000) 0 (-753005 # 1000000))).
Definition irb120 : qpoe :=
  QP [Rot (QV 0 1 0) qzero; Rot (QV 0 0 1) (QV 0 (29 # 100) 0); Rot (QV 0 0 1) (QV 0 (56 # 100) 0);
      Rot (QV 1 0 0) (QV (302 # 1000) (63 # 100) 0); Rot (QV 0 0 1) (QV (302 # 1000) (63 # 100) 0); Rot (QV 0 (-1) 0) (QV (302 # 1000) (63 # 100) 0)]
    (QF (QV 0 (-1) 0) (QV 0 0 (-1)) (QV 1 0 0) (QV (302 # 1000) (47 # 100) 0)).
Definition puma : qpoe :=
  QP [Rot (QV 0 1 0) qzero; Rot (QV 1 0 0) (QV 0 2 0); Rot (QV 1 0 0) (QV 0 3 0); Rot (QV 0 1 0) (QV 0 3 0);
      Rot (QV 1 0 0) (QV 0 5 0); Rot (QV 0 0 1) (QV 0 5 0)] (qat (QV 0 5 1)).
(** 196-209, 228-239, 262-275: with sliding joints *)
Definition stanford : qpoe :=
  QP [Rot (QV 0 1 0) qzero; Rot (QV 1 0 0) (QV 0 2 0); Tra (QV 0 1 0); Rot (QV 0 1 0) (QV 0 2 0);
      Rot (QV 1 0 0) (QV 0 5 0); Rot (QV 0 0 1) (QV 0 5 0)] (qat (QV 0 5 1)).
Definition irb910sc : qpoe :=
  QP [Rot (QV 0 1 0) qzero; Rot (QV 0 1 0) (QV (4 # 10) 0 0); Tra (QV 0 (-1) 0); Rot (QV 0 (-1) 0) (QV (65 # 100) 0 0)]
    (QF (QV 1 0 0) (QV 0 0 (-1)) (QV 0 1 0) (QV (65 # 100) (125 # 1000) 0)).
Definition irb6620lx : qpoe :=
  QP [Tra (QV 0 0 1); Rot (QV 0 0 1) (QV (1468 # 1000) (25 # 10) 0); Rot (QV 0 0 1) (QV (2443 # 1000) (25 # 10) 0);
      Rot (QV 0 (-1) 0) (QV (2643 # 1000) (1613 # 1000) 0); Rot (QV 0 0 1) (QV (2643 # 1000) (1613 # 1000) 0); Rot (QV 1 0 0) (QV (2643 # 1000) (1613 # 1000) 0)]
    (QF (QV 0 0 1) (QV 0 1 0) (QV (-1) 0 0) (QV 3 (1613 # 1000) 0)).
(** numbers drawn *)
Definition drawn : list Q := [1 # 2; 1 # 3; 1 # 5; 1 # 7; 1 # 11; 1 # 13; 1 # 2; 1 # 3; 1 # 5; 1 # 7; 1 # 11; 1 # 13].

(** number of candidates of the problem built *)
Definition qbranches (s : qsubp) : nat := match s with QPK1 _ _ _ | QPG1 _ _ _ | QPG2 _ _ _ _ _ => 1 | _ => 2 end.
Definition qsolutions (o : outcome (option (qpoe * list qsubp * bool))) : option nat :=
  match o with Returns (Some (_, [], _)) => None | Returns (Some (_, ss, _)) => Some (fold_left (fun n s => n * qbranches s)%nat ss 1%nat) | _ => None end.

(** ** Recognising an arm with a spherical wrist and its steps *)
Definition qis0 (v : qvec) : bool := Qeq_bool (qx v) 0 && Qeq_bool (qy v) 0 && Qeq_bool (qz v) 0.
Definition qsame (a b : qvec) : bool := qis0 (qsub a b).
Definition qmotion (a b : motion) : bool := match a, b with ROTATION, ROTATION | TRANSLATION, TRANSLATION => true | _, _ => false end.
Definition qsame_exp (a b : qexp) : bool := qmotion (q_motion a) (q_motion b) && qsame (q_axis a) (q_axis b) && qsame (q_origin a) (q_origin b).
Definition qon (e : qexp) (x : qvec) : bool := qis0 (qcross (qsub x (q_origin e)) (q_axis e)).
Definition qunit (v : qvec) : bool := Qeq_bool (qdot v v) 1.
Definition qproper (f : qframe) : bool :=
  qunit (q_r0 f) && qunit (q_r1 f) && qunit (q_r2 f) &&
  Qeq_bool (qdot (q_r0 f) (q_r1 f)) 0 && Qeq_bool (qdot (q_r0 f) (q_r2 f)) 0 && Qeq_bool (qdot (q_r1 f) (q_r2 f)) 0 &&
  qsame (qcross (q_r0 f) (q_r1 f)) (q_r2 f).
Definition qcheck (p : qpoe) (ss : list qsubp) (r w x y : qvec) : bool :=
  qproper (q_tool p) &&
  match q_exps p, ss with
  | [e0; e1; e2; e3; e4; e5], [QPK3 i2 f2 w0 r0; QPK2 i0 i1 f0 f1 w1 r1; QPK2 i3 i4 f3 f4 x0 w2; QPK1 i5 f5 y0] =>
      forallb (fun e => qunit (q_axis e) && qis_rotation e) (q_exps p) &&
      Nat.eqb i0 0 && Nat.eqb i1 1 && Nat.eqb i2 2 && Nat.eqb i3 3 && Nat.eqb i4 4 && Nat.eqb i5 5 &&
      qsame_exp f0 e0 && qsame_exp f1 e1 && qsame_exp f2 e2 && qsame_exp f3 e3 && qsame_exp f4 e4 && qsame_exp f5 e5 &&
      qsame r0 r && qsame r1 r && qsame w0 w && qsame w1 w && qsame w2 w && qsame x0 x && qsame y0 y &&
      qon e0 r && qon e1 r && qon e3 w && qon e4 w && qon e5 w && qon e5 x &&
      negb (qis0 (qcross (q_axis e0) (q_axis e1))) && negb (qis0 (qcross (q_axis e3) (q_axis e4))) &&
      negb (qon e2 w) && negb (qon e2 r) && negb (qon e4 x) && negb (qon e5 y)
  | _, _ => false
  end.
(** the points of the steps *)
Definition qpoints (ss : list qsubp) : option (qvec * qvec * qvec * qvec) :=
  match ss with [QPK3 _ _ w r; _; QPK2 _ _ _ _ x _; QPK1 _ _ y] => Some (r, w, x, y) | _ => None end.
Definition qrecognised (o : outcome (option (qpoe * list qsubp * bool))) : bool :=
  match o with
  | Returns (Some (p', ss, _)) => match qpoints ss with Some (r, w, x, y) => qcheck p' ss r w x y | None => false end
  | _ => false
  end.

Open Scope R_scope.
Lemma qeq_r : forall a b, Qeq_bool a b = true <-> Q2R a = Q2R b.
Proof. intros. rewrite Qeq_bool_iff. split; [apply Qeq_eqR|apply eqR_Qeq]. Qed.
Lemma qis0_r : forall v, qis0 v = true <-> rv v = vzero.
Proof.
  intros v. unfold qis0, rv, vzero. rewrite !andb_true_iff, !qeq_r, r_0. split; [intros [[-> ->] ->]; reflexivity|].
  intro H. pose proof (f_equal vx H). pose proof (f_equal vy H). pose proof (f_equal vz H). cbn in *. auto.
Qed.
Lemma qsame_r : forall a b, qsame a b = true -> rv a = rv b.
Proof.
  intros a b H. apply qis0_r in H. rewrite rv_sub in H. unfold vsub, vzero in H.
  pose proof (f_equal vx H). pose proof (f_equal vy H). pose proof (f_equal vz H). cbn in *. unfold rv in *. cbn in *. apply vec_eq; cbn; lra.
Qed.
Lemma qsame_exp_r : forall a b, qsame_exp a b = true -> re a = re b.
Proof.
  intros [m a o] [m' a' o'] H. unfold qsame_exp in H. cbn in H. rewrite !andb_true_iff in H. destruct H as [[H1 H2] H3].
  unfold re. cbn. rewrite (qsame_r _ _ H2), (qsame_r _ _ H3). destruct m, m'; try discriminate; reflexivity.
Qed.
Lemma qunit_r : forall v, qunit v = true -> unit (rv v).
Proof. intros v H. apply qeq_r in H. rewrite r_dot in H. unfold unit. rewrite H. unfold Q2R; cbn; lra. Qed.
Lemma qon_r : forall e x, unit (rv (q_axis e)) -> (qon e x = true <-> on_axis (re e) (rv x)).
Proof.
  intros e x U. unfold qon. rewrite qis0_r, rv_cross, rv_sub. unfold on_axis, point_on, re. cbn [e_origin e_axis].
  generalize dependent (rv (q_axis e)). generalize (rv (q_origin e)), (rv x). clear. intros o z a U. split.
  - intro H. exists (dot a (vsub z o)).
    assert (K : vsub (vscale (dot a a) (vsub z o)) (vscale (dot a (vsub z o)) a) = vzero).
    { transitivity (cross a (vneg (cross a (vsub z o)))); [vring|]. replace (vneg (cross a (vsub z o))) with (cross (vsub z o) a) by vring. rewrite H. vring. }
    unfold unit in U. rewrite U in K. pose proof (f_equal vx K) as X. pose proof (f_equal vy K) as Y. pose proof (f_equal vz K) as Z.
    generalize dependent (dot a (vsub z o)). intros d K X Y Z. cbn in X, Y, Z. apply vec_eq; cbn; lra.
  - intros (t & ->). vring.
Qed.
Lemma rotation_of_rows : forall a b c, dot a a = 1 -> dot b b = 1 -> dot c c = 1 -> dot a b = 0 -> dot a c = 0 -> dot b c = 0 -> cross a b = c ->
  rotation_matrix (M (vx a) (vy a) (vz a) (vx b) (vy b) (vz b) (vx c) (vy c) (vz c)).
Proof.
  intros a b c A B CC AB AC BC X. split.
  - clear X. destruct a as [a1 a2 a3], b as [b1 b2 b3], c as [c1 c2 c3]. unfold dot in *. cbn [vx vy vz] in *. apply mat_eq; cbn; lra.
  - transitivity (dot (cross a b) c); [destruct a, b, c; unfold dot, cross, det; cbn; ring|]. now rewrite X.
Qed.
Lemma qproper_r : forall f, qproper f = true -> rigid (rf f).
Proof.
  intros f H. unfold qproper in H. rewrite !andb_true_iff in H. destruct H as [[[[[[U0 U1] U2] D01] D02] D12] C].
  apply qunit_r in U0, U1, U2. apply qeq_r in D01, D02, D12. rewrite r_dot, r_0 in D01, D02, D12. apply qsame_r in C. rewrite rv_cross in C.
  unfold rigid. cbn [fM rf]. destruct f as [a b c t]. cbn [q_r0 q_r1 q_r2] in *. unfold unit in *.
  change (rotation_matrix (M (vx (rv a)) (vy (rv a)) (vz (rv a)) (vx (rv b)) (vy (rv b)) (vz (rv b)) (vx (rv c)) (vy (rv c)) (vz (rv c)))).
  apply rotation_of_rows; assumption.
Qed.

Lemma check_sound : forall p ss r w x y, qcheck p ss r w x y = true ->
  poe_ok (rp p) /\ wrist_arm (exps (rp p)) (rv r) (rv w) (rv x) (rv y) /\ map rs ss = wrist_steps (exps (rp p)) (rv r) (rv w) (rv x) (rv y).
Proof.
  intros [es T] ss r w x y H. unfold qcheck in H. cbn [q_exps q_tool] in H. rewrite andb_true_iff in H. destruct H as [RT H]. apply qproper_r in RT.
  destruct es as [|e0 [|e1 [|e2 [|e3 [|e4 [|e5 [|]]]]]]]; try discriminate.
  destruct ss as [|[| |i2 f2 w0 r0| | | |] [|[|i0 i1 f0 f1 w1 r1| | | | |] [|[|i3 i4 f3 f4 x0 w2| | | | |] [|[i5 f5 y0| | | | | |] [|]]]]]; try discriminate.
  rewrite !andb_true_iff in H. repeat match goal with h : _ /\ _ |- _ => destruct h end.
  repeat match goal with
  | h : qsame_exp _ _ = true |- _ => apply qsame_exp_r in h
  | h : qsame _ _ = true |- _ => apply qsame_r in h
  | h : Nat.eqb _ _ = true |- _ => apply Nat.eqb_eq in h
  | h : negb _ = true |- _ => apply negb_true_iff in h
  end.
  match goal with h : forallb _ _ = true |- _ => rename h into FA end.
  assert (UR : Forall (fun e => unit (e_axis e)) (map re [e0; e1; e2; e3; e4; e5]) /\ no_translation (map re [e0; e1; e2; e3; e4; e5])).
  { rewrite forallb_forall in FA. unfold no_translation. rewrite !Forall_map. split; apply Forall_forall; intros e I; apply FA in I; apply andb_true_iff in I; destruct I as [I1 I2].
    - apply qunit_r in I1. exact I1.
    - unfold qis_rotation in I2. unfold re. cbn. destruct (q_motion e); [reflexivity|discriminate]. }
  destruct UR as [UU NT]. split; [split; [exact UU|exact RT]|].
  assert (UE : forall e, In e [e0; e1; e2; e3; e4; e5] -> unit (rv (q_axis e))).
  { intros e I. rewrite Forall_map, Forall_forall in UU. exact (UU e I). }
  split.
  - cbn [exps rp q_exps map wrist_arm]. cbn [map] in NT.
    assert (ON : forall e z, In e [e0; e1; e2; e3; e4; e5] -> qon e z = true -> on_axis (re e) (rv z)) by (intros e z I; apply (qon_r e z (UE e I))).
    assert (OFF : forall e z, In e [e0; e1; e2; e3; e4; e5] -> qon e z = false -> ~ on_axis (re e) (rv z)) by (intros e z I Z O; apply (qon_r e z (UE e I)) in O; congruence).
    assert (NP : forall e e', qis0 (qcross (q_axis e) (q_axis e')) = false -> cross (e_axis (re e)) (e_axis (re e')) <> vzero).
    { intros e e' Z C. cbn [re e_axis] in C. rewrite <- rv_cross in C. apply qis0_r in C. congruence. }
    split; [exact NT|].
    do 6 (split; [apply ON; [cbn; auto 10|assumption]|]). do 2 (split; [apply NP; assumption|]).
    do 3 (split; [apply OFF; [cbn; auto 10|assumption]|]). apply OFF; [cbn; auto 10|assumption].
  - cbn [exps rp q_exps map wrist_steps rs]. congruence.
Qed.

Lemma recognised : forall p fuel draws, qrecognised (qbuild fuel draws p) = true ->
  exists p' ss rev r w x y, build fuel (map Q2R draws) (rp p) = Returns (Some (p', ss, rev)) /\
    wrist_arm (exps p') r w x y /\ ss = wrist_steps (exps p') r w x y.
Proof.
  intros p fuel draws H. rewrite run_build. destruct (qbuild fuel draws p) as [[[[p' ss] b]|]| |]; cbn [qrecognised] in H; try discriminate.
  destruct (qpoints ss) as [[[[r w] x] y]|]; [|discriminate]. destruct (check_sound _ _ _ _ _ _ H) as (_ & WA & SS).
  exists (rp p'), (map rs ss), b, (rv r), (rv w), (rv x), (rv y). auto.
Qed.
Lemma proper_ok : forall p, qproper (q_tool p) && forallb (fun e => qunit (q_axis e)) (q_exps p) = true -> poe_ok (rp p).
Proof.
  intros p H. apply andb_true_iff in H. destruct H as [A B]. split; [|now apply qproper_r]. cbn [rp exps]. rewrite Forall_map, Forall_forall.
  intros e I. rewrite forallb_forall in B. apply qunit_r, B, I.
Qed.

(** the four arms without sliding joints are of that kind, and so are their problems *)
Lemma arms_built : forall p, In p [teo_arm; teo_leg; irb120; puma] -> poe_ok (rp p) /\
  exists p' ss rev r w x y, build 1000 (map Q2R drawn) (rp p) = Returns (Some (p', ss, rev)) /\
    wrist_arm (exps p') r w x y /\ ss = wrist_steps (exps p') r w x y.
Proof.
  intros p I. assert (qproper (q_tool p) && forallb (fun e => qunit (q_axis e)) (q_exps p) = true /\ qrecognised (qbuild 1000 drawn p) = true) as [A B].
  { cbn in I. destruct I as [<-|[<-|[<-|[<-|[]]]]]; split; vm_compute; reflexivity. }
  split; [apply proper_ok, A|apply recognised, B].
Qed.
(** the numbers of candidates that the tests expect (846-902) *)
Lemma branches_r : forall s, st_count (sub_step (rs s)) = qbranches s.
Proof. intros []; reflexivity. Qed.
Lemma solutions_r : forall fuel draws p n, qsolutions (qbuild fuel draws p) = Some n ->
  exists p' ss rev, build fuel (map Q2R draws) (rp p) = Returns (Some (p', ss, rev)) /\ computeSolutions (map sub_step ss) = n.
Proof.
  intros fuel draws p n H. rewrite run_build. destruct (qbuild fuel draws p) as [[[[p' ss] b]|]| |]; cbn [qsolutions] in H; try discriminate.
  exists (rp p'), (map rs ss), b. split; [reflexivity|]. assert (NE : ss <> []) by (intros ->; discriminate).
  assert (E : n = fold_left (fun n s => n * qbranches s)%nat ss 1%nat) by (destruct ss; [discriminate|]; injection H; intro; symmetry; assumption). clear H.
  assert (G : forall m, fold_left (fun n s => n * st_count s)%nat (map sub_step (map rs ss)) m = fold_left (fun n s => n * qbranches s)%nat ss m).
  { clear. induction ss as [|s ss IH]; intro m; [reflexivity|]. cbn [map fold_left]. now rewrite branches_r, IH. }
  rewrite E, <- G. destruct ss; [congruence|reflexivity].
Qed.
Lemma arms_counted : forall p n,
  In (p, n) [(irb120, 8); (puma, 8); (stanford, 8); (irb910sc, 2); (irb6620lx, 4); (teo_arm, 8); (teo_leg, 8)]%nat ->
  exists p' ss rev, build 1000 (map Q2R drawn) (rp p) = Returns (Some (p', ss, rev)) /\ computeSolutions (map sub_step ss) = n.
Proof.
  intros p n I. apply solutions_r.
  cbn in I. repeat destruct I as [I|I]; try (apply pair_equal_spec in I; destruct I as [<- <-]; vm_compute; reflexivity). destruct I.
Qed.

(** ** An arm with one joint *)
Definition mast : qpoe := QP [Rot (QV 0 0 1) qzero] (qat (QV 1 0 0)).
Definition mast_e : mexp := E ROTATION (V 0 0 1) vzero.
Definition mast_p : poe := P [mast_e] (ftrans (V 1 0 0)).
Lemma mast_eq : rp mast = mast_p.
Proof.
  unfold rp, mast, mast_p, mast_e, re, rf, qat, rv, ftrans, vzero, mid. cbn [q_exps q_tool map q_motion q_axis q_origin q_r0 q_r1 q_r2 q_p qx qy qz qzero].
  assert (Q2R 1 = 1) as -> by (unfold Q2R; cbn; lra). rewrite r_0. reflexivity.
Qed.
Lemma mast_built : build 20 [/ 2; / 2] mast_p = Returns (Some (mast_p, [SPK1 0 mast_e (V 1 0 0)], false)).
Proof.
  rewrite <- mast_eq. replace [/ 2; / 2] with (map Q2R [1 # 2; 1 # 2]) by (cbn [map]; unfold Q2R; cbn; repeat f_equal; lra).
  rewrite run_build. replace (qbuild 20 [1 # 2; 1 # 2] mast) with (Returns (Some (mast, [QPK1 0 (Rot (QV 0 0 1) qzero) (QV 1 0 0)], false))) by (vm_compute; reflexivity).
  assert (EE : re (Rot (QV 0 0 1) qzero) = mast_e).
  { unfold re, mast_e, rv, vzero. cbn [q_motion q_axis q_origin qx qy qz qzero]. assert (Q2R 1 = 1) as -> by (unfold Q2R; cbn; lra). now rewrite r_0. }
  assert (EV : rv (QV 1 0 0) = V 1 0 0).
  { unfold rv. cbn [qx qy qz]. assert (Q2R 1 = 1) as -> by (unfold Q2R; cbn; lra). now rewrite r_0. }
  cbn [rout option_map]. unfold rbuilt. cbn [fst snd map rs]. rewrite EE, EV. reflexivity.
Qed.
(** half a turn about the arm itself: the point aimed at stays, the pose does not *)
Definition flipped : frame := F (Rot2 (V 1 0 0) PI) (V 1 0 0).
Lemma mast_bad : exists cands q f, ik_solve mast_p (map sub_step [SPK1 0 mast_e (V 1 0 0)]) false flipped = Some (true, cands) /\ In q cands /\
  evaluate mast_p q = Some f /\ f <> flipped.
Proof.
  assert (U : unit (V 0 0 1)) by (unfold unit, dot; cbn; ring).
  set (rhs := fmul flipped (finv (ftrans (V 1 0 0)))).
  assert (RP : fapp rhs (V 1 0 0) = V 1 0 0).
  { unfold rhs. rewrite fapp_fmul. replace (fapp (finv (ftrans (V 1 0 0))) (V 1 0 0)) with vzero by (apply vec_eq; cbn; ring).
    apply vec_eq; cbn; ring. }
  assert (SV : pk1_solve 0 mast_e (V 1 0 0) rhs fid = Some (true, [[(0%nat, 0)]])).
  { apply pk1_found; [exact U| | |].
    - rewrite fapp_id, RP. unfold move1. rewrite asFrame_0 by exact U. apply fapp_id.
    - rewrite fapp_id. intro Q. apply (f_equal vx) in Q. cbn in Q. lra.
    - right. rewrite Rabs_R0. pose proof PI_RGT_0. pose proof PI2_1. unfold kdl_eps. lra. }
  exists [[0]], [0], (ftrans (V 1 0 0)). split; [|split; [now left|split]].
  - unfold ik_solve, ik_init. cbn [map sub_step exps mast_p tool length repeat steps_loop]. unfold step_body. cbn [k_sols k_rhs k_terms k_reach length seq branch_loop].
    unfold branch_body. cbn [nth_error k_sols k_rhs k_terms k_reach]. unfold transformPoint. cbn [length transform_loop nth_error st_solve pk1_step].
    fold rhs. rewrite SV. reflexivity.
  - rewrite evaluate_some by reflexivity. cbn [exps mast_p tool]. unfold eval_terms. cbn [combine fold_left fst snd].
    unfold mast_e. rewrite asFrame_0 by exact U. now rewrite !fmul_id_l.
  - intro Q. apply (f_equal (fun h => m11 (fM h))) in Q. cbn in Q. rewrite cos_PI in Q. lra.
Qed.
Lemma flipped_rigid : rigid flipped.
Proof. unfold rigid, flipped. cbn [fM]. apply Rot2_rot. unfold unit, dot; cbn; ring. Qed.
Lemma mast_ok : poe_ok mast_p.
Proof. split; [|apply rigid_trans]. constructor; [|constructor]. unfold unit, dot; cbn; ring. Qed.
Lemma mast_steps : steps_ok 1 (problem_steps [SPK1 0 mast_e (V 1 0 0)]) /\ in_order mast_p (problem_steps [SPK1 0 mast_e (V 1 0 0)]) /\
  aims (exps mast_p) [] (SPK1 0 mast_e (V 1 0 0)) (V 1 0 0).
Proof.
  split; [|split].
  - split; [|split]; [|constructor; [intros []|constructor]|cbn; lia]. intros s ids [I|[]]. apply pair_equal_spec in I. destruct I as [<- <-]. apply pk1_ok.
  - intros ss0 s ids ss1 E. left. destruct ss0 as [|? ss0]; [reflexivity|]. cbn in E. injection E; intros. destruct ss0; discriminate.
  - split; [reflexivity|]. split; [reflexivity|]. split; [reflexivity|]. split; [intros []|]. split; [intros; lia|]. split; [intros []|].
    exists 1%nat. split; [cbn; lia|]. split; [intros; lia|]. cbn. intros; lia.
Qed.
Lemma mast_refutes : exists p fuel draws ss target cands q f,
  poe_ok p /\ rigid target /\ build fuel draws p = Returns (Some (p, ss, false)) /\
  ik_solve p (map sub_step ss) false target = Some (true, cands) /\ In q cands /\
  evaluate p q = Some f /\ f <> target.
Proof.
  destruct mast_bad as (cands & q & f & SV & I & EV & NE). exists mast_p, 20%nat, [/ 2; / 2], [SPK1 0 mast_e (V 1 0 0)], flipped, cands, q, f.
  split; [exact mast_ok|]. split; [exact flipped_rigid|]. split; [exact mast_built|]. auto.
Qed.
