(** Proofs about MatrixExponential and PoeExpression. *)
From Coq Require Import Reals Lra List Bool Arith Lia.
From Verif Require Import Kdl KdlFacts Screw.
Import ListNotations.
Open Scope R_scope.

Lemma mk_exp_unit : forall m a o, unit (e_axis (mk_exp m a o)).
Proof. intros; apply normalize_unit. Qed.

Lemma asFrame_rigid : forall e t, unit (e_axis e) -> rigid (asFrame e t).
Proof.
  intros e t H; unfold asFrame, rigid; destruct (e_motion e); cbn.
  - apply Rot2_rot; auto.
  - apply rot_id.
Qed.

(** the translation part of a rotation term: (I - M) * origin *)
Lemma rot_shift : forall a o t, unit a ->
  mv (msub mid (Rot2 a t)) (cross (cross a o) a) = vsub o (mv (Rot2 a t) o).
Proof.
  intros a o t H. rewrite mv_msub, mv_id, cross_cross_l, H, vscale_1, mv_sub, mv_scale, Rot2_axis by auto.
  vring.
Qed.

Lemma asFrame_rot : forall a o t, unit a ->
  asFrame (E ROTATION a o) t = F (Rot2 a t) (vsub o (mv (Rot2 a t) o)).
Proof. intros; unfold asFrame; cbn; rewrite rot_shift; auto. Qed.

Lemma asFrame_rot_app : forall a o t x, unit a ->
  fapp (asFrame (E ROTATION a o) t) x = vadd o (mv (Rot2 a t) (vsub x o)).
Proof. intros; rewrite asFrame_rot by auto; unfold fapp; cbn; rewrite mv_sub; vring. Qed.

Lemma asFrame_trans_app : forall a o t x,
  fapp (asFrame (E TRANSLATION a o) t) x = vadd x (vscale t a).
Proof. intros; unfold asFrame, fapp; cbn; rewrite mv_id; reflexivity. Qed.

Lemma asFrame_0 : forall e, unit (e_axis e) -> asFrame e 0 = fid.
Proof.
  intros [[] a o] H; cbn in H.
  - rewrite asFrame_rot, Rot2_zero, mv_id, vsub_diag by auto; reflexivity.
  - unfold asFrame; cbn; apply frame_eq; cbn; [reflexivity | apply vec_eq; vunf; ring].
Qed.

Lemma asFrame_plus : forall e s t, unit (e_axis e) ->
  asFrame e (s + t) = fmul (asFrame e s) (asFrame e t).
Proof.
  intros [[] a o] s t H; cbn in H.
  - rewrite !asFrame_rot by auto. unfold fmul; cbn. rewrite Rot2_plus by auto. f_equal.
    rewrite mv_sub, <- mv_mm, Rot2_plus by auto; vring.
  - unfold asFrame, fmul; cbn. rewrite mm_id_l, mv_id. f_equal. vring.
Qed.

Lemma asFrame_neg : forall e t, unit (e_axis e) -> asFrame e (- t) = finv (asFrame e t).
Proof.
  intros e t H. apply (fmul_cancel_l (asFrame e t)); [apply asFrame_rigid; auto|].
  rewrite <- asFrame_plus, fmul_inv_r, Rplus_opp_r by (try apply asFrame_rigid; auto).
  apply asFrame_0; auto.
Qed.

Lemma exp_group_law : forall m a o s t x l,
  asFrame (mk_exp m a o) 0 = fid /\
  asFrame (mk_exp m a o) (s + t) = fmul (asFrame (mk_exp m a o) s) (asFrame (mk_exp m a o) t) /\
  asFrame (mk_exp m a o) (- t) = finv (asFrame (mk_exp m a o) t) /\
  (m = ROTATION ->
     fapp (asFrame (mk_exp m a o) t) (vadd o (vscale l (normalize a))) = vadd o (vscale l (normalize a)) /\
     asFrame (mk_exp m a (vadd o (vscale l (normalize a)))) t = asFrame (mk_exp m a o) t /\
     norm (vsub (fapp (asFrame (mk_exp m a o) t) x) o) = norm (vsub x o)) /\
  (m = TRANSLATION -> fapp (asFrame (mk_exp m a o) t) x = vadd x (vscale t (normalize a))).
Proof.
  intros m a o s t x l. pose proof (mk_exp_unit m a o) as U. pose proof (normalize_unit a) as U'.
  repeat split.
  - apply asFrame_0; auto.
  - apply asFrame_plus; auto.
  - apply asFrame_neg; auto.
  - subst m; unfold mk_exp. rewrite asFrame_rot_app by auto.
    replace (vsub (vadd o (vscale l (normalize a))) o) with (vscale l (normalize a)) by (apply vec_eq; vunf; ring).
    rewrite mv_scale, Rot2_axis by auto. reflexivity.
  - subst m; unfold mk_exp. rewrite !asFrame_rot by auto. f_equal.
    rewrite mv_add, mv_scale, Rot2_axis by auto. vring.
  - subst m; unfold mk_exp. rewrite asFrame_rot_app by auto.
    replace (vsub (vadd o (mv (Rot2 (normalize a) t) (vsub x o))) o) with (mv (Rot2 (normalize a) t) (vsub x o))
      by (apply vec_eq; vunf; ring).
    apply norm_rot, Rot2_rot; auto.
  - intro; subst m; unfold mk_exp; apply asFrame_trans_app.
Qed.

(** the sense of rotation: a quarter turn takes a vector normal to the axis to axis x vector *)
Lemma exp_quarter_turn : forall a o w, dot (normalize a) w = 0 ->
  fapp (asFrame (mk_exp ROTATION a o) (PI / 2)) (vadd o w) = vadd o (cross (normalize a) w).
Proof.
  intros a o w H. unfold mk_exp. rewrite asFrame_rot_app by apply normalize_unit.
  rewrite Rot2_mv, cos_PI2, sin_PI2.
  replace (vsub (vadd o w) o) with w by (apply vec_eq; vunf; ring).
  rewrite H. vring.
Qed.

Lemma changeBase_conj : forall e h t, unit (e_axis e) -> rigid h ->
  asFrame (changeBase e h) t = fmul (fmul h (asFrame e t)) (finv h).
Proof.
  intros [[] a o] h t H R; cbn in H; unfold rigid in R.
  - unfold changeBase; cbn [e_motion e_axis e_origin].
    rewrite !asFrame_rot by (auto using unit_rot). rewrite Rot2_conj by auto.
    unfold fmul, finv, fapp; cbn. f_equal.
    + rewrite mm_assoc; reflexivity.
    + rewrite !mv_mm, !mv_add, !mv_sub, mv_neg, mv_mT_l by auto. rewrite ?mv_neg. vlin.
  - unfold changeBase, asFrame, fmul, finv; cbn. rewrite mm_id_r, rot_MT by auto. f_equal.
    rewrite mv_neg, mv_mT_r, mv_scale by auto. vring.
Qed.

Lemma changeBase_unit : forall e h, unit (e_axis e) -> rigid h -> unit (e_axis (changeBase e h)).
Proof. intros; cbn; apply unit_rot; auto. Qed.

(** ** Products *)
Lemma eval_terms_cons : forall e es x q h,
  eval_terms (e :: es) (x :: q) h = eval_terms es q (fmul h (asFrame e x)).
Proof. reflexivity. Qed.

Lemma eval_terms_nil_r : forall es h, eval_terms es [] h = h.
Proof. intros []; reflexivity. Qed.

Lemma eval_terms_acc : forall es q h, eval_terms es q h = fmul h (eval_terms es q fid).
Proof.
  induction es as [|e es IH]; intros [|x q] h; try (unfold eval_terms; cbn; rewrite fmul_id_r; reflexivity).
  rewrite !eval_terms_cons, IH, (IH q (fmul fid _)), fmul_id_l, fmul_assoc; reflexivity.
Qed.

Lemma eval_terms_step : forall e es x q,
  eval_terms (e :: es) (x :: q) fid = fmul (asFrame e x) (eval_terms es q fid).
Proof. intros; rewrite eval_terms_cons, eval_terms_acc, fmul_id_l; reflexivity. Qed.

Lemma eval_terms_app : forall es es' q q', length es = length q ->
  eval_terms (es ++ es') (q ++ q') fid = fmul (eval_terms es q fid) (eval_terms es' q' fid).
Proof.
  induction es as [|e es IH]; intros es' [|x q] q' L; try discriminate; cbn [app].
  - unfold eval_terms at 2; cbn; rewrite fmul_id_l; reflexivity.
  - rewrite !eval_terms_step, IH, fmul_assoc by (injection L; auto); reflexivity.
Qed.

Lemma eval_terms_rigid : forall es q, Forall (fun e => unit (e_axis e)) es -> rigid (eval_terms es q fid).
Proof.
  induction es as [|e es IH]; intros [|x q] F; try apply rigid_id.
  inversion F; subst. rewrite eval_terms_step. apply rigid_mul; [apply asFrame_rigid|]; auto.
Qed.

Lemma eval_terms_base : forall es q h, Forall (fun e => unit (e_axis e)) es -> rigid h ->
  eval_terms (map (fun e => changeBase e h) es) q fid = fmul (fmul h (eval_terms es q fid)) (finv h).
Proof.
  induction es as [|e es IH]; intros q h F R.
  - cbn. unfold eval_terms; cbn; rewrite fmul_id_r, fmul_inv_r; auto.
  - destruct q as [|x q].
    + rewrite !eval_terms_nil_r, fmul_id_r, fmul_inv_r; auto.
    + inversion F; subst. cbn [map]. rewrite !eval_terms_step, IH, changeBase_conj by auto.
      rewrite !fmul_assoc. do 2 f_equal. rewrite <- fmul_assoc, fmul_inv_l, fmul_id_l by auto. reflexivity.
Qed.

Lemma evaluate_some : forall p q, length q = length (exps p) ->
  evaluate p q = Some (fmul (eval_terms (exps p) q fid) (tool p)).
Proof. intros p q L; unfold evaluate; rewrite L, Nat.eqb_refl; reflexivity. Qed.

Lemma evaluate_none : forall p q, length q <> length (exps p) -> evaluate p q = None.
Proof. intros p q L; unfold evaluate. rewrite (proj2 (Nat.eqb_neq _ _)); auto. Qed.

Lemma append_exps : forall es p h,
  exps (fold_left (fun acc e => append_exp acc e h) es p) = exps p ++ map (fun e => changeBase e h) es.
Proof.
  induction es as [|e es IH]; intros; cbn; [rewrite app_nil_r; reflexivity|].
  rewrite IH; cbn. rewrite <- app_assoc; reflexivity.
Qed.

Lemma makeReverse_eq : forall p, makeReverse p = reverseSelf p.
Proof.
  intros p; unfold makeReverse, reverseSelf.
  assert (G : forall es q, fold_left (fun acc e => append_exp acc e (tool acc)) es q =
     P (exps q ++ map (fun e => changeBase e (tool q)) es) (tool q)).
  { induction es as [|e es IH]; intros q; cbn; [rewrite app_nil_r; destruct q; reflexivity|].
    rewrite IH; cbn. rewrite <- app_assoc; reflexivity. }
  rewrite G; reflexivity.
Qed.

Lemma Forall_map_base : forall es h, Forall (fun e => unit (e_axis e)) es -> rigid h ->
  Forall (fun e => unit (e_axis e)) (map (fun e => changeBase e h) es).
Proof.
  intros es h F R; rewrite Forall_map. eapply Forall_impl; [|exact F].
  intros; apply changeBase_unit; auto.
Qed.

Lemma ok_append_exp : forall p e h, poe_ok p -> unit (e_axis e) -> rigid h -> poe_ok (append_exp p e h).
Proof.
  intros p e h [A B] U R; split; cbn; auto. apply Forall_app; split; auto.
  constructor; auto. apply changeBase_unit; auto.
Qed.
Lemma ok_append_poe : forall p p' h, poe_ok p -> poe_ok p' -> rigid h -> poe_ok (append_poe p p' h).
Proof.
  intros p p' h [A B] [A' B'] R; split; cbn.
  - rewrite append_exps; apply Forall_app; split; auto. apply Forall_map_base; auto.
  - apply rigid_mul; auto.
Qed.
Lemma ok_base : forall p h, poe_ok p -> rigid h -> poe_ok (changeBaseFrame p h).
Proof. intros p h [A B] R; split; cbn; [apply Forall_map_base; auto | apply rigid_mul; auto]. Qed.
Lemma ok_tool : forall p h, poe_ok p -> rigid h -> poe_ok (changeToolFrame p h).
Proof. intros p h [A B] R; split; cbn; auto; apply rigid_mul; auto. Qed.
Lemma ok_reverse : forall p, poe_ok p -> poe_ok (reverseSelf p).
Proof.
  intros p [A B]; split; cbn; [|apply rigid_inv; auto].
  apply Forall_rev, Forall_map_base; auto. apply rigid_inv; auto.
Qed.

Lemma joint_pose_rigid : forall s q, segment_ok s -> rigid (joint_pose (s_joint s) q).
Proof.
  intros [[t sc off a o] f] q (F & U & Z & S & O); cbn in *. unfold joint_pose; cbn.
  destruct t; unfold rigid; cbn; try apply rot_id;
    rewrite ?RotX_Rot2, ?RotY_Rot2, ?RotZ_Rot2; apply Rot2_rot; auto using unit_ex, unit_ey, unit_ez.
Qed.
Lemma segment_pose_rigid : forall s q, segment_ok s -> rigid (segment_pose s q).
Proof. intros; apply rigid_mul; [apply joint_pose_rigid | apply H]; auto. Qed.

Lemma fromChain_step_ok : forall c p h, chain_ok c -> poe_ok p -> rigid h ->
  poe_ok (fst (fold_left fromChain_step c (p, h))) /\ rigid (snd (fold_left fromChain_step c (p, h))).
Proof.
  induction c as [|s c IH]; intros p h C Hp Hh; cbn; auto.
  inversion C; subst. apply IH; auto.
  - destruct (jointTypeToMotionId _); auto.
    apply ok_append_exp; auto using mk_exp_unit, rigid_id.
  - apply rigid_mul; auto. apply segment_pose_rigid; auto.
Qed.

Lemma reachable_ok : forall p, poe_reachable p -> poe_ok p.
Proof.
  induction 1.
  - split; cbn; auto.
  - apply ok_append_exp; auto using mk_exp_unit.
  - apply ok_append_poe; auto.
  - apply ok_base; auto.
  - apply ok_tool; auto.
  - apply ok_reverse; auto.
  - rewrite makeReverse_eq; apply ok_reverse; auto.
  - unfold fromChain. pose proof (fromChain_step_ok c (mk_poe fid) fid H) as G.
    assert (poe_ok (mk_poe fid)) by (split; cbn; auto using rigid_id).
    destruct (fold_left fromChain_step c (mk_poe fid, fid)) as [p h] eqn:Ef.
    destruct (G H0 rigid_id) as [[A B] C]. split; cbn in *; auto.
Qed.

Lemma fk_rigid : forall p q, poe_reachable p ->
  (length q = length (exps p) -> exists h, evaluate p q = Some h /\ rigid h) /\
  (length q <> length (exps p) -> evaluate p q = None).
Proof.
  intros p q H; split; intro L.
  - apply reachable_ok in H as [A B]. rewrite evaluate_some by auto. eexists; split; [reflexivity|].
    apply rigid_mul; auto. apply eval_terms_rigid; auto.
  - apply evaluate_none; auto.
Qed.

(** FK is the ordered product of the displacements of the terms and of the tool transform,
    applied to points from the tool backwards *)
Lemma fk_point : forall p q h x, evaluate p q = Some h ->
  fapp h x = fold_right (fun eq y => fapp (asFrame (fst eq) (snd eq)) y) (fapp (tool p) x) (combine (exps p) q).
Proof.
  intros p q h x H. unfold evaluate in H. destruct (Nat.eqb _ _); [|discriminate].
  injection H; intros <-. rewrite fapp_fmul. generalize (fapp (tool p) x) as y. clear H.
  generalize q; induction (exps p) as [|e es IH]; intros [|t q'] y; try (unfold eval_terms; cbn; apply fapp_id).
  rewrite eval_terms_step, fapp_fmul, IH; reflexivity.
Qed.

Lemma fk_changeBase : forall p h q f, poe_ok p -> rigid h -> evaluate p q = Some f ->
  evaluate (changeBaseFrame p h) q = Some (fmul h f).
Proof.
  intros p h q f [A B] R H. unfold evaluate in *. cbn [exps tool reverseSelf changeBaseFrame changeToolFrame]. rewrite map_length.
  destruct (Nat.eqb _ _); [|discriminate]. injection H; intros <-. f_equal.
  rewrite eval_terms_base, !fmul_assoc by auto. do 2 f_equal.
  rewrite <- fmul_assoc, fmul_inv_l, fmul_id_l; auto.
Qed.

Lemma fk_changeTool : forall p h q f, evaluate p q = Some f ->
  evaluate (changeToolFrame p h) q = Some (fmul f h).
Proof.
  intros p h q f H. unfold evaluate in *. cbn [exps tool reverseSelf changeBaseFrame changeToolFrame].
  destruct (Nat.eqb _ _); [|discriminate]. injection H; intros <-. rewrite fmul_assoc; reflexivity.
Qed.

Lemma fk_append : forall p p' h q q' f f', poe_ok p -> poe_ok p' -> rigid h ->
  evaluate (P (exps p) fid) q = Some f -> evaluate p' q' = Some f' ->
  evaluate (append_poe p p' h) (q ++ q') = Some (fmul (fmul f h) f') /\
  length (exps (append_poe p p' h)) = (length (exps p) + length (exps p'))%nat.
Proof.
  intros p p' h q q' f f' [A B] [A' B'] R H H'. unfold evaluate in *. cbn [exps tool] in *.
  destruct (Nat.eqb (length (exps p)) (length q)) eqn:E1; [|discriminate].
  destruct (Nat.eqb (length (exps p')) (length q')) eqn:E2; [|discriminate].
  apply Nat.eqb_eq in E1, E2. injection H; intros <-. injection H'; intros <-. clear H H'.
  cbn [append_poe exps tool]. rewrite append_exps. split; [|rewrite app_length, map_length; reflexivity].
  rewrite !app_length, map_length, E1, E2, Nat.eqb_refl. f_equal.
  rewrite eval_terms_app, eval_terms_base, fmul_id_r, !fmul_assoc by auto. do 3 f_equal.
  rewrite <- fmul_assoc, fmul_inv_l, fmul_id_l; auto.
Qed.

Lemma eval_terms_rev : forall es q, Forall (fun e => unit (e_axis e)) es -> length es = length q ->
  eval_terms (rev es) (rev (map Ropp q)) fid = finv (eval_terms es q fid).
Proof.
  induction es as [|e es IH]; intros [|x q] F L; try discriminate.
  - unfold eval_terms; cbn; rewrite finv_id; reflexivity.
  - inversion F; subst. cbn [rev map]. rewrite eval_terms_app, IH, (eval_terms_step e es x q).
    + rewrite finv_fmul by (try apply asFrame_rigid; try apply eval_terms_rigid; auto).
      f_equal. rewrite eval_terms_step. unfold eval_terms; cbn.
      rewrite fmul_id_r, asFrame_neg; auto.
    + auto.
    + injection L; auto.
    + rewrite !rev_length, map_length. injection L; auto.
Qed.

Lemma fk_reverse : forall p q f, poe_ok p -> evaluate p q = Some f ->
  evaluate (reverseSelf p) (rev_neg q) = Some (finv f).
Proof.
  intros p q f [A B] H. unfold evaluate, rev_neg in *. cbn [exps tool reverseSelf changeBaseFrame changeToolFrame].
  rewrite !rev_length, !map_length.
  destruct (Nat.eqb _ _) eqn:E1; [|discriminate]. apply Nat.eqb_eq in E1. injection H; intros <-. f_equal.
  pose proof (rigid_inv _ B) as B'.
  rewrite eval_terms_rev by (try apply Forall_map_base; auto; rewrite map_length; auto).
  rewrite eval_terms_base, finv_inv by auto.
  assert (R : rigid (eval_terms (exps p) q fid)) by (apply eval_terms_rigid; auto).
  rewrite !finv_fmul by auto using rigid_mul, rigid_inv. rewrite finv_inv by auto.
  rewrite !fmul_assoc, fmul_inv_r, fmul_id_r by auto. reflexivity.
Qed.

Lemma rev_neg_rev_neg : forall q, rev_neg (rev_neg q) = q.
Proof.
  intros q; unfold rev_neg. rewrite map_rev, rev_involutive, map_map.
  rewrite <- (map_id q) at 2. apply map_ext; intro; ring.
Qed.

Lemma fk_reverse_reverse : forall p q, poe_ok p -> evaluate (reverseSelf (reverseSelf p)) q = evaluate p q.
Proof.
  intros p q Hp. destruct (Nat.eq_dec (length q) (length (exps p))) as [L|L].
  - pose proof (evaluate_some p q L) as H1. rewrite H1.
    pose proof (fk_reverse _ _ _ Hp H1) as H2.
    pose proof (fk_reverse _ _ _ (ok_reverse _ Hp) H2) as H3.
    rewrite rev_neg_rev_neg in H3. rewrite H3. rewrite finv_inv; auto.
    destruct Hp; apply rigid_mul; auto. apply eval_terms_rigid; auto.
  - rewrite !evaluate_none; auto. cbn. rewrite !rev_length, !map_length, rev_length, map_length; auto.
Qed.

(** ** toChain *)
Lemma chain_fk_app : forall c c' q q' h h', chain_fk h c q = Some h' ->
  chain_fk h (c ++ c') (q ++ q') = chain_fk h' c' q'.
Proof.
  induction c as [|s c IH]; intros c' q q' h h' H; cbn in *.
  - destruct q; [|discriminate]. injection H; intros <-; reflexivity.
  - destruct (is_fixed _); [apply IH; auto|].
    destruct q as [|x q]; [discriminate|]. cbn. apply IH; auto.
Qed.

Lemma toChain_loop_ok : forall es h_prev c q qs t,
  Forall (fun e => unit (e_axis e)) es -> length es = length qs ->
  h_prev = ftrans (fp h_prev) ->
  chain_fk fid c q = Some (fmul t h_prev) ->
  exists c' h', toChain_loop es h_prev c = Some (c', h') /\
     h' = ftrans (fp h') /\
     chain_fk fid c' (q ++ qs) = Some (fmul (fmul t (eval_terms es qs fid)) h') /\
     nr_of_joints c' = (nr_of_joints c + length es)%nat.
Proof.
  induction es as [|e es IH]; intros h_prev c q qs t F L T C.
  - destruct qs; [|discriminate]. exists c, h_prev. cbn. rewrite app_nil_r. unfold eval_terms; cbn.
    rewrite fmul_id_r, Nat.add_0_r. auto.
  - destruct qs as [|x qs]; [discriminate|]. injection L; intro L'. inversion F; subst.
    pose (j := J (motionToJointType (e_motion e)) 1 0 (e_axis e) (fapp (finv h_prev) (e_origin e))).
    assert (Ej : mk_axis_joint (fapp (finv h_prev) (e_origin e)) (e_axis e) (motionToJointType (e_motion e)) = Some j).
    { unfold mk_axis_joint, j. rewrite (unit_norm (e_axis e)) by auto. rewrite Rinv_1, vscale_1.
      destruct (e_motion e); reflexivity. }
    cbn [toChain_loop]. rewrite Ej. cbn [j_origin j].
    set (s := mk_segment j (ftrans (fapp (finv h_prev) (e_origin e)))).
    specialize (IH (ftrans (e_origin e)) (c ++ [s]) (q ++ [x]) qs (fmul t (asFrame e x))).
    destruct IH as (c' & h' & E1 & E2 & E3 & E4); auto.
    + assert (NF : is_fixed (s_joint s) = false).
      { unfold s, mk_segment, is_fixed, j; cbn. destruct (e_motion e); reflexivity. }
      rewrite (chain_fk_app c [s] q [x] fid _ C). cbn [chain_fk]. rewrite NF. f_equal.
      rewrite !fmul_assoc. f_equal.
      (* h_prev * segment_pose = asFrame e x * trans origin *)
      unfold segment_pose, s, mk_segment. cbn [s_joint s_tip].
      assert (O : fapp (finv h_prev) (e_origin e) = vsub (e_origin e) (fp h_prev)).
      { rewrite T, finv_ftrans. unfold fapp; cbn. rewrite mv_id; vring. }
      unfold joint_pose, j; cbn. rewrite O, T. cbn [fp ftrans].
      destruct e as [[] a o]; cbn [e_motion e_axis e_origin motionToJointType] in *.
      * rewrite asFrame_rot by auto. rewrite Rmult_0_r, !Rplus_0_r, Rmult_1_l, Rot2_zero. apply frame_ext; intro v.
        rewrite !fapp_fmul. unfold finv, fapp, ftrans; cbn.
        rewrite !mT_id, !mv_id, !mv_add, !mv_sub. vring.
      * unfold asFrame; cbn. apply frame_ext; intro v.
        rewrite !fapp_fmul. unfold finv, fapp, ftrans; cbn.
        rewrite !mT_id, !mv_id. vring.
    + exists c', h'. repeat split; auto.
      * rewrite <- app_assoc in E3; cbn in E3. rewrite E3. f_equal. f_equal.
        rewrite eval_terms_step, fmul_assoc; reflexivity.
      * rewrite E4. unfold nr_of_joints. rewrite filter_app, app_length. cbn.
        destruct (e_motion e); cbn; lia.
Qed.

Lemma fk_toChain : forall p q, poe_ok p -> length q = length (exps p) ->
  exists c f, toChain p = Some c /\ nr_of_joints c = length (exps p) /\
    evaluate p q = Some f /\ chain_fwd_kin c q = Some f.
Proof.
  intros p q [A B] L.
  destruct (toChain_loop_ok (exps p) fid [] [] q fid) as (c' & h' & E1 & E2 & E3 & E4); auto.
  { cbn. rewrite fmul_id_l; reflexivity. }
  unfold toChain. rewrite E1. cbn [mk_joint].
  eexists; eexists; split; [reflexivity|]. rewrite evaluate_some by auto. repeat split.
  - unfold nr_of_joints. rewrite filter_app, app_length. unfold nr_of_joints in E4. rewrite E4. cbn; lia.
  - cbn in E3. unfold chain_fwd_kin. rewrite <- (app_nil_r q) at 1.
    rewrite (chain_fk_app c' _ q [] fid _ E3). cbn [chain_fk is_fixed mk_segment s_joint j_type]. f_equal.
    unfold segment_pose, mk_segment; cbn [s_joint s_tip].
    change (joint_pose _ 0) with fid.
    rewrite finv_id, !fmul_id_l, fmul_assoc, <- (fmul_assoc h'), fmul_inv_r, fmul_id_l; auto.
    rewrite E2. apply rigid_trans.
Qed.

(** ** fromChain *)
Lemma changeBase_fid : forall e, changeBase e fid = e.
Proof. intros [[] a o]; unfold changeBase; cbn; rewrite ?mv_id, ?fapp_id; reflexivity. Qed.

Lemma mk_exp_pose : forall h s m x, rigid h -> segment_ok s ->
  jointTypeToMotionId (j_type (s_joint s)) = Some m ->
  fmul (asFrame (mk_exp m (mv (fM h) (joint_axis (s_joint s))) (fapp h (j_origin (s_joint s)))) x)
       (fmul h (joint_pose (s_joint s) 0))
  = fmul h (joint_pose (s_joint s) x).
Proof.
  intros h s m x Hh Hs Hm. destruct s as [[t sc off a o] f]. unfold segment_ok in Hs; cbn in *.
  destruct Hs as (F & U & Z & -> & ->). unfold rigid in Hh.
  assert (UX : unit (mv (fM h) (V 1 0 0))) by auto using unit_rot, unit_ex.
  assert (UY : unit (mv (fM h) (V 0 1 0))) by auto using unit_rot, unit_ey.
  assert (UZ : unit (mv (fM h) (V 0 0 1))) by auto using unit_rot, unit_ez.
  assert (UA : t = JRotAxis \/ t = JTransAxis -> unit (mv (fM h) a)) by auto using unit_rot.
  destruct t; cbn in Hm; try discriminate; injection Hm; intros <-; unfold joint_axis, joint_pose;
    cbn [j_type j_scale j_offset j_axis j_origin s_joint];
    unfold mk_exp; rewrite normalize_of_unit by auto;
    rewrite ?Z by discriminate;
    rewrite ?RotX_Rot2, ?RotY_Rot2, ?RotZ_Rot2;
    rewrite ?Rmult_0_r, ?Rplus_0_r, ?Rmult_1_l, ?Rplus_0_r, ?Rot2_zero.
  all: try (rewrite asFrame_rot, Rot2_conj by auto; apply frame_ext; intro v;
    rewrite !fapp_fmul; unfold fapp; cbn;
    rewrite ?mv_id, ?mv_add, ?mv_sub, ?mv_zero, ?mv_mm, ?mv_add, ?mv_mT_l by auto; vlin).
  all: apply frame_ext; intro v; rewrite !fapp_fmul, asFrame_trans_app; unfold fapp, ftrans; cbn;
    rewrite ?mv_id, ?mv_add; apply vec_eq; vunf; ring.
Qed.

Lemma fromChain_inv : forall c p h q qs acc,
  chain_ok c -> rigid h -> length (exps p) = length q ->
  acc = fmul (eval_terms (exps p) q fid) h ->
  length qs = nr_of_joints c ->
  exists f, chain_fk acc c qs = Some f /\
   let r := fold_left fromChain_step c (p, h) in
   length (exps (fst r)) = (length (exps p) + nr_of_joints c)%nat /\
   f = fmul (eval_terms (exps (fst r)) (q ++ qs) fid) (snd r).
Proof.
  induction c as [|s c IH]; intros p h q qs acc C Hh L A N.
  - cbn in *. destruct qs; [|discriminate]. exists acc. rewrite app_nil_r; repeat split; auto.
  - inversion C as [|? ? Hs C']; subst. cbn [fold_left].
    assert (Rs : rigid (fmul h (segment_pose s 0))) by (apply rigid_mul; auto using segment_pose_rigid).
    destruct (jointTypeToMotionId (j_type (s_joint s))) as [m|] eqn:Em.
    + assert (NF : is_fixed (s_joint s) = false).
      { unfold is_fixed; destruct (j_type (s_joint s)); auto; discriminate. }
      assert (N' : nr_of_joints (s :: c) = Datatypes.S (nr_of_joints c)).
      { unfold nr_of_joints; cbn. rewrite NF; reflexivity. }
      rewrite N' in N. destruct qs as [|x qs]; [discriminate|]. injection N; intro N2.
      pose (e := mk_exp m (mv (fM h) (joint_axis (s_joint s))) (fapp h (j_origin (s_joint s)))).
      assert (ST : fromChain_step (p, h) s = (append_exp p e fid, fmul h (segment_pose s 0))).
      { unfold fromChain_step; rewrite Em; reflexivity. }
      rewrite ST.
      destruct (IH (append_exp p e fid) (fmul h (segment_pose s 0)) (q ++ [x]) qs
        (fmul (fmul (eval_terms (exps p) q fid) h) (segment_pose s x))) as (f & F1 & F2 & F3); auto.
      * cbn; rewrite !app_length; cbn; lia.
      * unfold append_exp; cbn [exps]. rewrite eval_terms_app, eval_terms_step by auto.
        unfold eval_terms at 3; cbn [combine fold_left]. rewrite fmul_id_r.
        unfold cloneWithBase; rewrite changeBase_fid. unfold segment_pose.
        rewrite !fmul_assoc. f_equal. rewrite <- !fmul_assoc. f_equal.
        symmetry. rewrite fmul_assoc. apply mk_exp_pose; auto.
      * exists f. cbn [chain_fk]. rewrite NF. split; [exact F1|]. split.
        -- cbn in *. rewrite F2, app_length, N'. cbn; lia.
        -- cbn in *. rewrite F3, <- app_assoc; reflexivity.
    + assert (NF : is_fixed (s_joint s) = true).
      { unfold is_fixed; destruct (j_type (s_joint s)); auto; discriminate. }
      assert (N' : nr_of_joints (s :: c) = nr_of_joints c).
      { unfold nr_of_joints; cbn. rewrite NF; reflexivity. }
      rewrite N' in N.
      assert (ST : fromChain_step (p, h) s = (p, fmul h (segment_pose s 0))).
      { unfold fromChain_step; rewrite Em; reflexivity. }
      rewrite ST.
      destruct (IH p (fmul h (segment_pose s 0)) q qs (fmul (fmul (eval_terms (exps p) q fid) h) (segment_pose s 0)))
        as (f & F1 & F2 & F3); auto.
      * rewrite !fmul_assoc; reflexivity.
      * exists f. cbn [chain_fk]. rewrite NF, N'. auto.
Qed.

Lemma fk_fromChain : forall c q, chain_ok c -> length q = nr_of_joints c ->
  length (exps (fromChain c)) = nr_of_joints c /\
  exists f, chain_fwd_kin c q = Some f /\ evaluate (fromChain c) q = Some f.
Proof.
  intros c q C L.
  destruct (fromChain_inv c (mk_poe fid) fid [] q fid) as (f & F1 & F2 & F3); auto using rigid_id.
  { cbn; rewrite fmul_id_r; reflexivity. }
  cbn [length exps mk_poe] in F2. rewrite Nat.add_0_l in F2. unfold fromChain.
  destruct (fold_left fromChain_step c (mk_poe fid, fid)) as [p h] eqn:Ef. cbn in *.
  split; auto. exists f; split; auto. unfold evaluate; cbn. rewrite F2, L, Nat.eqb_refl, F3; reflexivity.
Qed.

(** the chain returned by toChain meets the hypotheses of fk_fromChain *)
Lemma toChain_loop_chain_ok : forall es h_prev c c' h',
  Forall (fun e => unit (e_axis e)) es -> h_prev = ftrans (fp h_prev) -> chain_ok c ->
  toChain_loop es h_prev c = Some (c', h') -> chain_ok c' /\ h' = ftrans (fp h').
Proof.
  induction es as [|e es IH]; intros h_prev c c' h' F T C H; cbn in H.
  - injection H; intros; subst; auto.
  - inversion F; subst. unfold mk_axis_joint in H. rewrite (unit_norm (e_axis e)) in H by auto.
    rewrite Rinv_1, vscale_1 in H.
    destruct (e_motion e); cbn in H; (eapply IH; [ | | | exact H]); auto; apply Forall_app; split; auto; constructor; auto;
      unfold segment_ok; cbn; repeat split; try apply rot_id; auto; try (intro X; exfalso; apply X; reflexivity);
      try (intros _ X; exfalso; apply X; reflexivity); unfold rigid, mk_segment; cbn;
      rewrite ?Rmult_0_r, ?Rplus_0_r, ?Rot2_zero, ?mT_id, ?mm_id_l; try apply rot_id; try reflexivity; cbn; try ring.
Qed.

Lemma fk_roundtrip : forall p q c, poe_ok p -> toChain p = Some c -> evaluate (fromChain c) q = evaluate p q.
Proof.
  intros p q c Hp Hc.
  assert (CO : chain_ok c).
  { unfold toChain in Hc. destruct (toChain_loop _ _ _) as [[c' h']|] eqn:El; [|discriminate].
    destruct Hp as [A B]. apply toChain_loop_chain_ok in El as [C T]; auto; [|constructor].
    cbn in Hc. injection Hc; intros <-. apply Forall_app; split; auto. constructor; auto.
    unfold segment_ok; cbn; repeat split; try (intros [X|X]; discriminate X).
    all: unfold rigid, mk_segment, joint_pose; cbn; rewrite ?mT_id, ?mm_id_l; try apply rot_mm; auto.
    all: try (rewrite T; apply rot_id).
    all: try apply rot_mT; try (rewrite T; apply rot_id). }
  destruct (Nat.eq_dec (length q) (length (exps p))) as [L|L].
  - destruct (fk_toChain p q Hp L) as (c2 & f & E1 & E2 & E3 & E4). rewrite Hc in E1; injection E1; intros <-.
    destruct (fk_fromChain c q CO) as (L1 & f' & G1 & G2); [congruence|]. congruence.
  - rewrite (evaluate_none p) by auto. apply evaluate_none.
    destruct (fk_toChain p (map (fun _ => 0) (exps p)) Hp) as (c2 & f & E1 & E2 & _); [apply map_length|].
    rewrite Hc in E1; injection E1; intros <-.
    destruct (fk_fromChain c (map (fun _ => 0) (exps p)) CO) as (L1 & _); [rewrite map_length; congruence|].
    congruence.
Qed.

(** ** Refutations and examples *)
Lemma append_self_diverges : forall fuel p h, exps p <> [] -> append_self_loop fuel 0 (exps p) h = None.
Proof.
  intros fuel p h N.
  assert (G : forall fuel i es, (i < length es)%nat -> append_self_loop fuel i es h = None).
  { induction fuel0 as [|k IH]; intros i es L; cbn; auto.
    destruct (nth_error es i) eqn:E1.
    - apply IH. rewrite app_length; cbn; lia.
    - apply nth_error_None in E1; lia. }
  apply G. destruct (exps p); [contradiction | cbn; lia].
Qed.

(** a chain with a single reversed joint about Z, as built from the configuration "InvRotZ" *)
Definition inv_rotz_chain : chain := [mk_segment (J JRotZ (-1) 0 vzero vzero) fid].

Lemma inv_rotz_mismatch : exists q f f',
  chain_fwd_kin inv_rotz_chain q = Some f /\ evaluate (fromChain inv_rotz_chain) q = Some f' /\ f <> f'.
Proof.
  exists [PI / 2]. unfold inv_rotz_chain, chain_fwd_kin, fromChain. cbn.
  eexists; eexists; split; [reflexivity|]. unfold evaluate; cbn. split; [reflexivity|].
  intro H. apply (f_equal (fun h => m10 (fM h))) in H. unfold segment_pose, mk_segment, joint_pose, finv in H. cbn in H.
  rewrite (normalize_of_unit (mv mid (V 0 0 1))) in H by (rewrite mv_id; apply unit_ez).
  rewrite !Rmult_0_r, !Rplus_0_r in H.
  replace (-1 * (PI / 2)) with (- (PI / 2)) in H by ring.
  rewrite !sin_neg, !cos_neg, sin_PI2, cos_PI2, sin_0, cos_0 in H. vunf. lra.
Qed.

(** two-term formula used as a non-trivial instance: a rotation about an axis that is given
    unnormalised and off the origin, followed by a translation, with a displaced tool *)
Definition ex_poe : poe :=
  append_exp (append_exp (mk_poe (ftrans (V 1 2 3))) (mk_exp ROTATION (V 0 0 5) (V 1 0 0)) fid)
    (mk_exp TRANSLATION (V 1 1 0) vzero) (F (RotZ (PI / 2)) (V 0 1 0)).

Lemma rotz_rigid : forall t v, rigid (F (RotZ t) v).
Proof. intros; unfold rigid; cbn; rewrite RotZ_Rot2; apply Rot2_rot, unit_ez. Qed.

Lemma ex_poe_reachable : poe_reachable ex_poe.
Proof. unfold ex_poe. repeat constructor; auto using rigid_trans, rigid_id, rotz_rigid; try apply rigid_trans; try apply rotz_rigid; apply rigid_id. Qed.
Lemma ex_poe_ok : poe_ok ex_poe.
Proof. apply reachable_ok, ex_poe_reachable. Qed.
Lemma ex_poe_eval : exists f, evaluate ex_poe [PI / 2; 3] = Some f.
Proof. eexists; unfold evaluate; cbn; reflexivity. Qed.

(** three segments: RotZ, fixed, TransAxis along a unit diagonal off the origin *)
Definition ex_chain : chain :=
  [mk_segment (J JRotZ 1 0 vzero vzero) (ftrans (V 1 0 0));
   mk_segment (J JNone 1 0 vzero vzero) (F (RotZ (PI / 2)) (V 0 0 1));
   mk_segment (J JTransAxis 1 0 (V (3 / 5) (4 / 5) 0) (V 0 1 0)) (ftrans (V 0 0 2))].
Lemma ex_chain_ok : chain_ok ex_chain /\ nr_of_joints ex_chain = 2%nat.
Proof.
  split; [|reflexivity]. unfold ex_chain, chain_ok.
  repeat apply Forall_cons; try apply Forall_nil; unfold segment_ok; cbn -[fmul finv joint_pose ftrans];
    repeat split; try (intros [X|X]; discriminate X); try reflexivity;
    try (intros; exfalso; auto; fail).
  all: try (unfold unit; vunf; field).
  all: try (intros; unfold unit; vunf; field).
  all: unfold mk_segment, joint_pose; cbn -[fmul finv];
    repeat (apply rot_mm || apply rot_mT || apply rot_id || (cbn; rewrite RotZ_Rot2; apply Rot2_rot, unit_ez)
      || (rewrite RotZ_Rot2; apply Rot2_rot, unit_ez)).
Qed.
