(** The problem that the example builds, and runs of it. *)
From Coq Require Import QArith Reals Qreals Lra Psatz List Bool Lia Arith.
From Verif Require Import Kdl KdlFacts KdlRot KdlRotFacts Screw ScrewFacts Trig TrigFacts Subproblems SubproblemFacts SubproblemFacts2 SubproblemFacts3 IkProblem IkSpec IkProblemFacts IkProblemFacts2 IkProblemFacts3 Selector SelectorFacts
  Builder BuilderSpec BuilderRun BuilderRunFacts KinRep KdlSolverFacts IkPoseSpec IkPoseFacts IkPoseFacts2 IkPoseFacts3 IkPoseFacts4 IkPoseArms IkPoseExamples Follow FollowSpec FollowFacts FollowFacts2.
Import ListNotations.
Open Scope R_scope.
Local Notation S := Datatypes.S.

(** *** the problem *)
Definition qleft : qpoe :=
  QP [QE ROTATION (QV 0 1 0) (QV 0 (34692 # 100000) (4982 # 10000)); QE ROTATION (QV 1 0 0) (QV 0 (34692 # 100000) (4982 # 10000)); QE ROTATION (QV 0 0 1) (QV 0 (34692 # 100000) (4982 # 10000));
      QE ROTATION (QV 0 1 0) (QV 0 (34692 # 100000) (16919 # 100000)); QE ROTATION (QV 0 0 1) (QV 0 (34692 # 100000) (16919 # 100000)); QE ROTATION (QV 0 1 0) (QV 0 (34692 # 100000) (-4581 # 100000))]
    (QF (QV 0 1 0) (QV 0 0 1) (QV 1 0 0) (QV 0 (34692 # 100000) (-13581 # 100000))).
Lemma qleft_eq : rp qleft = left_arm.
Proof.
  rewrite left_arm_eq. unfold rp, qleft, rf, re, rv, shoulder, elbow, wrist, R0, Q2R. cbn [q_exps q_tool map q_motion q_axis q_origin q_r0 q_r1 q_r2 q_p qx qy qz Qnum Qden].
  assert (EX : forall a b o o', a = b -> o = o' -> E ROTATION a o = E ROTATION b o') by (intros; subst; reflexivity).
  f_equal.
  - repeat (apply (f_equal2 cons); [apply EX; apply vec_eq; cbn [vx vy vz]; field|]). reflexivity.
  - f_equal; [apply mat_eq; cbn; field|apply vec_eq; cbn [vx vy vz]; field].
Qed.
Definition l_draws : list R := map Q2R drawn.
Definition l0 := E ROTATION (V 0 0 1) (V (9 / 100) 0 0).
Definition l1 := E ROTATION (V 1 0 0) (V (305 / 1000) 0 0).
Definition l2 := E ROTATION (V 0 0 1) (V (305 / 1000) 0 0).
Definition l3 := E ROTATION (V 1 0 0) (V (63401 / 100000) 0 0).
Definition l4 := E ROTATION (V 0 1 0) (V (63401 / 100000) 0 0).
Definition l5 := E ROTATION (V 0 0 1) (V (63401 / 100000) 0 0).
Definition lt := F (M 0 0 1 1 0 0 0 1 0) (V (13581 / 100000) 0 (- (34692 / 100000))).
Definition lp := P [l0; l1; l2; l3; l4; l5] lt.
Definition lr := V (9 / 100) 0 0.
Definition lw := V (63401 / 100000) 0 0.
Definition lx := V (63401 / 100000) 0 (1 / 13).
Definition ly := V 0 0 0.
Definition lss : list sub := wrist_steps (exps lp) lr lw lx ly.
Lemma l_built : build 1000 l_draws left_arm = Returns (Some (lp, lss, true)).
Proof.
  rewrite <- qleft_eq. unfold l_draws. rewrite run_build.
  match goal with |- context [qbuild ?a ?b ?c] => let v := eval vm_compute in (qbuild a b c) in replace (qbuild a b c) with v by (vm_compute; reflexivity) end.
  cbn [rout option_map]. unfold rbuilt. cbn [fst snd map rs].
  unfold lss, wrist_steps, lp, l0, l1, l2, l3, l4, l5, lt, lr, lw, lx, ly, rp, re, rf, rv. cbn [exps q_exps q_tool map q_motion q_axis q_origin q_r0 q_r1 q_r2 q_p qx qy qz].
  assert (N0 : Q2R 0 = 0) by (unfold Q2R; cbn; lra). assert (N1 : Q2R 1 = 1) by (unfold Q2R; cbn; lra). 
  assert (N9 : Q2R (9 # 100) = 9 / 100) by (unfold Q2R; cbn; lra). assert (N3 : Q2R (61 # 200) = 305 / 1000) by (unfold Q2R; cbn; lra).
  assert (N6 : Q2R (63401 # 100000) = 63401 / 100000) by (unfold Q2R; cbn; lra). assert (N7 : Q2R (1 # 13) = 1 / 13) by (unfold Q2R; cbn; lra).
  assert (N8 : Q2R (13581 # 100000) = 13581 / 100000) by (unfold Q2R; cbn; lra). assert (N5 : Q2R (-8673 # 25000) = - (34692 / 100000)) by (unfold Q2R; cbn; lra).
  rewrite ?N0, ?N1, ?N9, ?N3, ?N6, ?N7, ?N8, ?N5. reflexivity.
Qed.
Lemma l_arm : wrist_arm (exps lp) lr lw lx ly.
Proof.
  cbn. split; [unfold no_translation; repeat constructor|].
  assert (ON : forall e v t, v = point_on e t -> on_axis e v) by (intros e v t H; exists t; exact H).
  split; [apply (ON _ _ 0); unfold point_on; apply vec_eq; cbn; ring|]. split; [apply (ON _ _ (9 / 100 - 305 / 1000)); unfold point_on; apply vec_eq; cbn; field|].
  split; [apply (ON _ _ 0); unfold point_on; apply vec_eq; cbn; ring|]. split; [apply (ON _ _ 0); unfold point_on; apply vec_eq; cbn; ring|].
  split; [apply (ON _ _ 0); unfold point_on; apply vec_eq; cbn; ring|]. split; [apply (ON _ _ (1 / 13)); unfold point_on; apply vec_eq; cbn; field|].
  split; [intro Q; apply (f_equal vy) in Q; cbn in Q; lra|].
  split; [intro Q; apply (f_equal vz) in Q; cbn in Q; lra|].
  split; [off|]. split; [off|]. split; [off|]. off.
Qed.

(** *** the preparation *)
Definition l_follower (limits : nat -> R * R) (start : frame) : follower :=
  Fo lp lss true (new_selector (map fst (map limits (seq 0 6))) (map snd (map limits (seq 0 6)))) start 6.
Lemma l_prepared limits q start : length q = 6%nat -> evaluate left_arm (map degToRad q) = Some start ->
  prepare 1000 l_draws q (fun i => Some (limits i)) true = Returns (Some (l_follower limits start)).
Proof.
  intros L EV. unfold prepare. rewrite left_six, L. change (Nat.ltb 6 6) with false. cbv iota zeta.
  replace (firstn 6 q) with q by (rewrite <- L; symmetry; apply firstn_all). rewrite EV, l_built.
  assert (AL : forall js, all_limits (fun i => Some (limits i)) js = Some (map fst (map limits js), map snd (map limits js))).
  { induction js as [|j js IH]; cbn [all_limits map]; [reflexivity|]. rewrite IH. destruct (limits j). reflexivity. }
  rewrite AL. reflexivity.
Qed.
Lemma l_wrist limits start : wrist_follower (l_follower limits start) lr lw lx ly.
Proof. exact (conj l_arm eq_refl). Qed.
Lemma l_start q : length q = 6%nat -> exists start, evaluate left_arm (map degToRad q) = Some start.
Proof. intro L. unfold evaluate. rewrite left_six, map_length, L. cbn [Nat.eqb]. eexists; reflexivity. Qed.

(** where the arm puts a point *)
Lemma left_app q0 q1 q2 q3 q4 q5 f v : evaluate left_arm [q0; q1; q2; q3; q4; q5] = Some f ->
  fapp f v = move1 (E ROTATION (V 0 1 0) shoulder) q0 (move1 (E ROTATION (V 1 0 0) shoulder) q1 (move1 (E ROTATION (V 0 0 1) shoulder) q2
    (move1 (E ROTATION (V 0 1 0) elbow) q3 (move1 (E ROTATION (V 0 0 1) elbow) q4 (move1 (E ROTATION (V 0 1 0) wrist) q5
      (fapp (F R0 (V 0 (34692 / 100000) (- (13581 / 100000)))) v)))))).
Proof.
  rewrite left_arm_eq. unfold evaluate. cbn [exps length Nat.eqb tool]. intro H. injection H as <-.
  rewrite !fapp_fmul. unfold eval_terms. cbn [combine fold_left]. rewrite !fapp_fmul, fapp_id. reflexivity.
Qed.
Lemma list6 (q : list R) : length q = 6%nat -> exists q0 q1 q2 q3 q4 q5, q = [q0; q1; q2; q3; q4; q5].
Proof. intro L. destruct q as [|q0 [|q1 [|q2 [|q3 [|q4 [|q5 [|]]]]]]]; try discriminate. do 6 eexists; reflexivity. Qed.
Lemma dist_spin a o t v c : unit a -> on_axis (E ROTATION a o) c -> dist (move1 (E ROTATION a o) t v) c = dist v c.
Proof.
  intros U (s & ->). assert (X : move1 (E ROTATION a o) t (point_on (E ROTATION a o) s) = point_on (E ROTATION a o) s).
  { rewrite move_rot by exact U. unfold point_on. cbn [e_origin e_axis]. replace (vsub (vadd o (vscale s a)) o) with (vscale s a) by (destruct o, a; vlin).
    rewrite mv_scale. rewrite Rot2_axis by exact U. reflexivity. }
  rewrite <- X at 1. apply dist_rigid. apply asFrame_rigid. exact U.
Qed.

(** *** how far the tool gets *)
Lemma uX : unit (V 1 0 0). Proof. unfold unit, dot; cbn; ring. Qed.
Lemma uY : unit (V 0 1 0). Proof. unfold unit, dot; cbn; ring. Qed.
Lemma uZ : unit (V 0 0 1). Proof. unfold unit, dot; cbn; ring. Qed.
Lemma self_on a o : on_axis (E ROTATION a o) o.
Proof. exists 0. unfold point_on. cbn. destruct o, a; vlin. Qed.
Lemma dist_tri a b c : dist a c <= dist a b + dist b c.
Proof. unfold dist. apply norm_triangle3. Qed.
Lemma dist_z a b z z' : z' <= z -> dist (V a b z) (V a b z') = z - z'.
Proof. intro H. unfold dist, norm, dot. cbn. replace ((a - a) * (a - a) + (b - b) * (b - b) + (z - z') * (z - z')) with ((z - z') * (z - z')) by ring. apply sqrt_square. lra. Qed.
Lemma dist_sym a b : dist a b = dist b a.
Proof. unfold dist. apply norm_eq_iff. vring. Qed.
Lemma reach q f : length q = 6%nat -> evaluate left_arm q = Some f -> dist (fp f) shoulder <= 63401 / 100000.
Proof.
  intros L EV. destruct (list6 q L) as (q0 & q1 & q2 & q3 & q4 & q5 & ->).
  replace (fp f) with (fapp f vzero) by (unfold fapp, vzero; destruct f as [[] []]; apply vec_eq; cbn; ring). rewrite (left_app _ _ _ _ _ _ _ _ EV).
  set (tip := fapp (F R0 _) vzero). assert (T : tip = V 0 (34692 / 100000) (- (13581 / 100000))) by (unfold tip, R0, vzero; apply vec_eq; cbn; ring). clearbody tip.
  rewrite dist_spin by (exact uY || apply self_on). rewrite dist_spin by (exact uX || apply self_on). rewrite dist_spin by (exact uZ || apply self_on).
  eapply Rle_trans; [apply (dist_tri _ elbow)|]. rewrite dist_spin by (exact uY || apply self_on). rewrite dist_spin by (exact uZ || apply self_on).
  eapply Rle_trans; [apply Rplus_le_compat_r, (dist_tri _ wrist)|]. rewrite dist_spin by (exact uY || apply self_on).
  assert (D1 : dist tip wrist = 9 / 100) by (rewrite T, dist_sym; unfold wrist; rewrite dist_z by lra; lra).
  assert (D2 : dist wrist elbow = 215 / 1000) by (rewrite dist_sym; unfold wrist, elbow; rewrite dist_z by lra; lra).
  assert (D3 : dist elbow shoulder = 32901 / 100000) by (rewrite dist_sym; unfold shoulder, elbow; rewrite dist_z by lra; lra).
  rewrite D1, D2, D3. lra.
Qed.
Lemma no_turn a o v : unit a -> move1 (E ROTATION a o) 0 v = v.
Proof. intro U. rewrite move_rot by exact U. rewrite Rot2_zero. apply vec_eq; cbn; ring. Qed.
Lemma forward_start f : evaluate left_arm (map degToRad [-90; 0; 0; 0; 0; 0]) = Some f -> fp f = V (63401 / 100000) (34692 / 100000) (4982 / 10000).
Proof.
  cbn [map]. intro EV. replace (fp f) with (fapp f vzero) by (unfold fapp, vzero; destruct f as [[] []]; apply vec_eq; cbn; ring). rewrite (left_app _ _ _ _ _ _ _ _ EV).
  unfold degToRad. replace (-90 * (PI / 180)) with (- (PI / 2)) by field. replace (0 * (PI / 180)) with 0 by ring.
  set (tip := fapp (F R0 _) vzero). assert (T : tip = V 0 (34692 / 100000) (- (13581 / 100000))) by (unfold tip, R0, vzero; apply vec_eq; cbn; ring). clearbody tip. subst tip.
  rewrite !(no_turn _ _ _ uY), !(no_turn _ _ _ uZ), !(no_turn _ _ _ uX). rewrite spin_y. cbn [vx vy vz]. rewrite sin_mh, cos_mh. unfold shoulder, elbow, wrist. cbn [vx vy vz]. apply vec_eq; cbn [vx vy vz]; field.
Qed.
Lemma elbow_start f : evaluate left_arm (map degToRad [0; 0; 0; 90; 0; 0]) = Some f -> fapp f lr = V (- (215 / 1000)) (34692 / 100000) (16919 / 100000).
Proof.
  cbn [map]. intro EV. rewrite (left_app _ _ _ _ _ _ _ _ EV).
  unfold degToRad. replace (90 * (PI / 180)) with (PI / 2) by field. replace (0 * (PI / 180)) with 0 by ring.
  set (tip := fapp (F R0 _) lr). assert (T : tip = wrist) by (unfold tip, R0, lr, wrist; apply vec_eq; cbn; field). clearbody tip. subst tip.
  rewrite !(no_turn _ _ _ uY), !(no_turn _ _ _ uZ), !(no_turn _ _ _ uX). rewrite spin_y. cbn [vx vy vz]. rewrite sin_PI2, cos_PI2. unfold shoulder, elbow, wrist. cbn [vx vy vz]. apply vec_eq; cbn [vx vy vz]; field.
Qed.

(** *** the elbow *)
Lemma elbow_angle G f0 ls n loc : pk3_solve 2 l2 lw lr G fid = Some (f0, ls) -> nth_error ls n = Some loc ->
  5 / 100 <= dist (fapp G lw) lr * dist (fapp G lw) lr -> dist (fapp G lw) lr * dist (fapp G lw) lr <= 15 / 100 -> exists th, loc = [(2%nat, th)] /\ (th < - (PI / 2) \/ PI / 2 < th).
Proof.
  intros SV N D1 D2. set (delta := dist (fapp G lw) lr) in *.
  assert (NU : norm (perp (V 0 0 1) (vsub (fapp fid lw) (V (305 / 1000) 0 0))) = 32901 / 100000).
  { rewrite fapp_id. unfold perp, lw, norm, dot. cbn. match goal with |- sqrt ?z = _ => replace z with ((32901 / 100000) * (32901 / 100000)) by field end. apply sqrt_square. lra. }
  assert (NV : norm (perp (V 0 0 1) (vsub lr (V (305 / 1000) 0 0))) = 215 / 1000).
  { unfold perp, lr, norm, dot. cbn. match goal with |- sqrt ?z = _ => replace z with ((215 / 1000) * (215 / 1000)) by field end. apply sqrt_square. lra. }
  assert (MV : forall th, dist (move1 l2 th lw) lr * dist (move1 l2 th lw) lr = (32901 / 100000) * (32901 / 100000) + (215 / 1000) * (215 / 1000) + 2 * (32901 / 100000) * (215 / 1000) * cos th).
  { intro th. unfold dist. rewrite norm_sqr. unfold l2. rewrite spin_z. pose proof (cs1 th). unfold lw, lr, dot. cbn [vx vy vz vsub]. nra. }
  destruct (pk3_generic 2 (V 0 0 1) (V (305 / 1000) 0 0) lw lr G fid uZ) as (t1 & t2 & S1 & R1 & R2 & _).
  { rewrite NU. lra. } { rewrite NV. lra. }
  { rewrite NU, NV, !fapp_id. fold delta. replace (dot (V 0 0 1) (vsub lw lr)) with 0 by (unfold dot, lw, lr; cbn; field).
    match goal with |- Rabs ?z <= _ => assert (Z : z * (2 * (32901 / 100000) * (215 / 1000)) = (32901 / 100000) * (32901 / 100000) + (215 / 1000) * (215 / 1000) - delta * delta) by field; generalize dependent z end.
    intros z Z. apply Rabs_le. unfold kdl_eps. lra. }
  rewrite fapp_id in R1, R2. fold delta in R1, R2. change (E ROTATION (V 0 0 1) (V (305 / 1000) 0 0)) with l2 in *.
  assert (OUT : forall th, reaches_dist l2 lw lr delta th -> th < - (PI / 2) \/ PI / 2 < th).
  { intros th (B & X & _). pose proof PI_RGT_0. destruct (Req_dec th PI) as [->|NE]; [right; lra|]. specialize (X NE). specialize (MV th). rewrite X in MV.
    destruct (Rlt_le_dec th (- (PI / 2))) as [|H1]; [left; assumption|]. destruct (Rlt_le_dec (PI / 2) th) as [|H2]; [right; assumption|].
    exfalso. pose proof (cos_ge_0 th H1 H2). nra. }
  assert (ls = [[(2%nat, t1)]; [(2%nat, t2)]]) as -> by (clear - SV S1; congruence).
  destruct n as [|[|n]]; cbn in N; [| |destruct n; discriminate]; injection N as <-; eexists; (split; [reflexivity|]); auto.
Qed.
