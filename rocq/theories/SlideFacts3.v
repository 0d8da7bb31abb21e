(** Proofs about the candidates found for arms with a sliding joint. *)
From Coq Require Import Reals Lra List Bool Lia Arith.
From Verif Require Import Kdl KdlFacts Screw ScrewFacts Trig TrigFacts Subproblems SubproblemSpec2 SubproblemFacts SubproblemFacts2 SubproblemFacts3 SubproblemFacts4 SubproblemFacts5 SubproblemFacts6
  IkProblem IkSpec IkProblemFacts IkProblemFacts2 IkProblemFacts3 Builder BuilderSpec IkPoseSpec IkPoseFacts IkPoseFacts2 IkPoseFacts3 SlideSpec SlideFacts SlideFacts2.
Import ListNotations.
Open Scope R_scope.
Local Notation S := Datatypes.S.

(** ** What each call finds *)
Definition finds (o : option (bool * solutions)) (n : nat) (loc : local_solution) : Prop :=
  exists k, (k < n)%nat /\ exists f (l : solutions), o = Some (f, l) /\ nth_error l k = Some loc.
Lemma pk1_used : forall id e v rhs h t, unit (e_axis e) -> e_motion e = ROTATION -> move1 e t (fapp h v) = fapp rhs v -> ~ on_axis e (fapp h v) -> settled t ->
  finds (pk1_solve id e v rhs h) 1 [(id, t)].
Proof.
  intros id e v rhs h t U M H N ST. exists 0%nat. split; [lia|]. exists true, [[(id, t)]]. split; [|reflexivity].
  rewrite (rotary_eq e M) in *. apply pk1_found; auto. apply (off_axis (E ROTATION (e_axis e) (e_origin e))); auto.
Qed.
Lemma pk2_used : forall id1 id2 e e' t t' v k rhs h, unit (e_axis e) -> unit (e_axis e') -> e_motion e = ROTATION -> e_motion e' = ROTATION ->
  on_axis e k -> on_axis e' k -> cross (e_axis e) (e_axis e') <> vzero ->
  move1 e t (move1 e' t' (fapp h v)) = fapp rhs v -> two_sided e e' k (move1 e' t' (fapp h v)) -> ~ on_axis e' (fapp h v) -> ~ on_axis e (move1 e' t' (fapp h v)) ->
  settled t -> settled t' -> finds (pk2_solve id1 id2 e e' v k rhs h) 2 [(id1, t); (id2, t')].
Proof.
  intros id1 id2 e e' t t' v k rhs h U U' M M' O O' C EQ TS N' N S1 S2.
  destruct (axis_through e k M O) as (s & E1), (axis_through e' k M' O') as (s' & E2).
  pose proof (pk2_found (e_axis e) (e_axis e') U U' (crossed e e' U U' C) id1 id2 s s' v k rhs h t t') as F. cbv zeta in F. rewrite <- E1, <- E2 in F.
  assert (OFF : forall d z, unit (e_axis d) -> on_axis d k -> ~ on_axis d z -> perp (e_axis d) (vsub z k) <> vzero).
  { intros d z Ud (u & K) NO. pose proof (off_axis d z Ud NO) as X. intro Q. apply X.
    replace (vsub z (e_origin d)) with (vadd (vsub z k) (vscale u (e_axis d))) by (rewrite K; unfold point_on; destruct z, (e_origin d), (e_axis d); vlin).
    rewrite perp_add, Q, perp_axis by exact Ud. vlin. }
  destruct F as (l1 & l2 & SV & H); auto.
  destruct H as [-> | ->]; [exists 0%nat|exists 1%nat]; (split; [lia|]); do 2 eexists; (split; [exact SV|reflexivity]).
Qed.
Lemma pg3_used : forall id e v k rhs h t, unit (e_axis e) -> e_motion e = TRANSLATION -> dist (move1 e t (fapp h v)) k = dist (fapp rhs v) k ->
  (let u := t - dot (e_axis e) (vsub k (fapp h v)) in kdl_eps <= u * u) -> finds (pg3_solve id e v k rhs h) 2 [(id, t)].
Proof.
  intros id e v k rhs h t U M D NZ. rewrite (sliding_eq e M) in *. cbn [e_axis] in *.
  pose proof (proj1 (pg3_dist_iff (e_axis e) (e_origin e) v k rhs h U t) D) as Q. cbv zeta in NZ. rewrite Q in NZ.
  destruct (pg3_generic id (e_axis e) (e_origin e) v k rhs h U NZ) as (th1 & th2 & SV & H).
  apply H in D. destruct D as [-> | ->]; [exists 0%nat|exists 1%nat]; (split; [lia|]); do 2 eexists; (split; [exact SV|reflexivity]).
Qed.
Lemma pg1_used : forall id e v rhs h t, t = dot (e_axis e) (vsub (fapp rhs v) (fapp h v)) -> finds (pg1_solve id e v rhs h) 1 [(id, t)].
Proof. intros id e v rhs h t ->. exists 0%nat. split; [lia|]. do 2 eexists. split; reflexivity. Qed.
Lemma pg4_used : forall id1 id2 e e' t t' v rhs h, unit (e_axis e) -> e_motion e = ROTATION -> e_motion e' = ROTATION -> parallel e e' ->
  kdl_eps <= away e (e_origin e') -> move1 e t (move1 e' t' (fapp h v)) = fapp rhs v -> unfolded e e' (fapp h v) (fapp rhs v) ->
  ~ on_axis e' (fapp h v) -> ~ on_axis e (move1 e' t' (fapp h v)) -> settled t -> settled t' ->
  finds (pg4_solve id1 id2 e e' v rhs h) 2 [(id1, t); (id2, t')].
Proof.
  intros id1 id2 e e' t t' v rhs h U M M' PA AP EQ UF N' N S1 S2.
  unfold unfolded in UF. rewrite (away_parallel e e' _ PA) in *. destruct (parallel_sign e e' PA) as (s & SS & A).
  assert (U' : unit (e_axis e')) by (unfold unit; rewrite A, dot_scale_l, dot_scale_r, U; lra).
  pose proof (off_axis _ _ U' N') as Q'. pose proof (off_axis _ _ U N) as Q.
  rewrite (perp_a2 (e_axis e) (e_axis e') s) in Q' by auto.
  destruct (pg4_found id1 id2 (e_axis e) (e_origin e) (e_axis e') (e_origin e') v s rhs h U SS A AP t t') as (l1 & l2 & SV & H);
    rewrite <- ?(rotary_eq e M), <- ?(rotary_eq e' M') in *; auto.
  destruct H as [-> | ->]; [exists 0%nat|exists 1%nat]; (split; [lia|]); do 2 eexists; (split; [exact SV|reflexivity]).
Qed.

(** ** Sliding along an axis *)
Lemma kept_level : forall e e' t z, unit (e_axis e) -> unit (e_axis e') -> e_motion e' = ROTATION -> parallel e e' -> dot (e_axis e) (vsub (fapp (asFrame e' t) z) z) = 0.
Proof.
  intros e e' t z U U' M PA. set (D := asFrame e' t).
  assert (O : fapp D (e_origin e') = e_origin e').
  { apply axis_stays; auto. exists 0. unfold point_on. destruct (e_origin e'), (e_axis e'); vlin. }
  assert (K : mv (fM D) (e_axis e) = e_axis e) by (apply axis_kept; auto).
  replace (vsub (fapp D z) z) with (vsub (vsub (fapp D z) (fapp D (e_origin e'))) (vsub z (e_origin e'))) by (rewrite O; generalize (fapp D z); intro; vlin).
  rewrite fapp_sub, dot_sub_r. rewrite <- K at 1. rewrite dot_rot by (apply (asFrame_rigid e' t U')). ring.
Qed.
Lemma off_slide : forall e z t a, (exists k, a = vscale k (e_axis e)) -> ~ on_axis e z -> ~ on_axis e (vadd z (vscale t a)).
Proof.
  intros e z t a (k & ->) N (u & Q). apply N. exists (u - t * k). unfold point_on in *.
  replace z with (vsub (vadd z (vscale t (vscale k (e_axis e)))) (vscale t (vscale k (e_axis e)))) by (generalize (e_axis e); intro; vlin).
  rewrite Q. destruct (e_origin e), (e_axis e); vlin.
Qed.

(** ** The products of the found displacements *)
Section Six.
Variables (e0 e1 e2 e3 e4 e5 : mexp) (T : frame) (w x y : vec) (reversed : bool) (target : frame).
Let p := P [e0; e1; e2; e3; e4; e5] T.
Let G := goal p reversed target.
Hypothesis POK : poe_ok p.
Hypothesis WP : wrist_part e3 e4 e5 w x y.
Variables (t0 t1 t2 t3 t4 t5 : R).
Hypothesis EV : evaluate p [t0; t1; t2; t3; t4; t5] = Some (if reversed then finv target else target).
Hypothesis WR : wrist_regular e3 e4 e5 w x t3 t4 t5.
Let D0 := asFrame e0 t0. Let D1 := asFrame e1 t1. Let D2 := asFrame e2 t2.
Let D3 := asFrame e3 t3. Let D4 := asFrame e4 t4. Let D5 := asFrame e5 t5.
Let A := fmul D0 (fmul D1 (fmul D2 fid)).
Let B := fmul D0 (fmul D1 (fmul D2 (fmul D3 (fmul D4 fid)))).

Lemma six_goal : G = fmul D0 (fmul D1 (fmul D2 (fmul D3 (fmul D4 D5)))).
Proof.
  rewrite evaluate_some in EV by reflexivity. unfold G, goal.
  assert (Q : (if reversed then finv target else target) = fmul (eval_terms (exps p) [t0; t1; t2; t3; t4; t5] fid) T) by (symmetry; exact (f_equal (fun o => match o with Some z => z | None => fid end) EV)).
  rewrite Q. change (tool p) with T. rewrite fmul_assoc, fmul_inv_r by apply POK. rewrite fmul_id_r.
  change (exps p) with [e0; e1; e2; e3; e4; e5]. rewrite !eval_terms_step. cbn [eval_terms]. rewrite fmul_id_r. reflexivity.
Qed.
Lemma six_centre : fapp G w = fapp D0 (fapp D1 (fapp D2 w)).
Proof.
  destruct WP as (M3 & M4 & M5 & W3 & W4 & W5 & _). pose proof (six_unit e0 e1 e2 e3 e4 e5 T POK) as UE.
  rewrite six_goal, !fapp_fmul. unfold D5, D4, D3. rewrite (axis_stays e5 w), (axis_stays e4 w), (axis_stays e3 w); auto; apply UE; cbn; auto 10.
Qed.
Lemma six_after2 : fmul (finv D0) G = fmul D1 (fmul D2 (fmul D3 (fmul D4 D5))).
Proof. rewrite six_goal. rewrite <- fmul_assoc, fmul_inv_l, fmul_id_l by (apply (six_rigid e0 e1 e2 e3 e4 e5 T POK); cbn; auto). reflexivity. Qed.
Lemma six_wrist : finds (pk2_solve 3 4 e3 e4 x w (fmul (finv A) G) fid) 2 [(3%nat, t3); (4%nat, t4)] /\
  finds (pk1_solve 5 e5 y (fmul (finv B) G) fid) 1 [(5%nat, t5)].
Proof.
  destruct WP as (M3 & M4 & M5 & W3 & W4 & W5 & X5 & C34 & N4 & N5). pose proof (six_unit e0 e1 e2 e3 e4 e5 T POK) as UE.
  destruct WR as (S3 & S4 & S5 & NW & TW).
  assert (RD : forall e t, In e (exps p) -> rigid (asFrame e t)) by (apply (six_rigid e0 e1 e2 e3 e4 e5 T POK)).
  assert (RA : rigid A) by (repeat apply rigid_mul; try apply rigid_id; apply RD; cbn; auto 10).
  assert (RB : rigid B) by (repeat apply rigid_mul; try apply rigid_id; apply RD; cbn; auto 10).
  assert (GA : fmul (finv A) G = fmul D3 (fmul D4 D5)).
  { rewrite six_goal. replace (fmul D0 (fmul D1 (fmul D2 (fmul D3 (fmul D4 D5))))) with (fmul A (fmul D3 (fmul D4 D5))).
    - rewrite <- fmul_assoc, fmul_inv_l, fmul_id_l by exact RA. reflexivity.
    - unfold A. now rewrite fmul_id_r, !fmul_assoc. }
  assert (GB : fmul (finv B) G = D5).
  { rewrite six_goal. replace (fmul D0 (fmul D1 (fmul D2 (fmul D3 (fmul D4 D5))))) with (fmul B D5).
    - rewrite <- fmul_assoc, fmul_inv_l, fmul_id_l by exact RB. reflexivity.
    - unfold B. now rewrite fmul_id_r, !fmul_assoc. }
  assert (U3 : unit (e_axis e3)) by (apply UE; cbn; auto 10). assert (U4 : unit (e_axis e4)) by (apply UE; cbn; auto 10). assert (U5 : unit (e_axis e5)) by (apply UE; cbn; auto 10).
  split.
  - apply pk2_used; rewrite ?fapp_id; auto. rewrite GA, !fapp_fmul. unfold D5. rewrite axis_stays by auto. reflexivity.
  - apply pk1_used; rewrite ?fapp_id; auto. rewrite GB. reflexivity.
Qed.
End Six.

Section SlidingFound.
Variables (e0 e1 e2 e3 e4 e5 : mexp) (T : frame) (r w x y : vec) (reversed : bool) (target : frame).
Let p := P [e0; e1; e2; e3; e4; e5] T.
Let G := goal p reversed target.
Hypothesis POK : poe_ok p.
Hypothesis SA : sliding_arm (exps p) r w x y.
Let ss := sliding_steps (exps p) r w x y.
Variables (t0 t1 t2 t3 t4 t5 : R) (q : list R).
Hypothesis TH : (if reversed then rev_neg q else q) = [t0; t1; t2; t3; t4; t5].
Hypothesis EV : evaluate p [t0; t1; t2; t3; t4; t5] = Some (if reversed then finv target else target).
Hypothesis RG : sliding_regular (exps p) r w x [t0; t1; t2; t3; t4; t5].
Let D0 := asFrame e0 t0. Let D1 := asFrame e1 t1. Let D2 := asFrame e2 t2. Let D3 := asFrame e3 t3. Let D4 := asFrame e4 t4. Let D5 := asFrame e5 t5. 

Lemma sliding_found : exists flag cands, ik_solve p (map sub_step ss) reversed target = Some (flag, cands) /\ In q cands.
Proof.
  destruct (sliding_defined e0 e1 e2 e3 e4 e5 T r w x y reversed target POK SA) as (flag & cands & SV). exists flag, cands. split; [exact SV|].
  pose proof SA as SA'. cbn in SA'. destruct SA' as (M0 & M1 & M2 & R0 & R1 & C01 & WP).
  pose proof RG as RG'. cbn [sliding_regular exps p] in RG'. cbv zeta in RG'. destruct RG' as (S0 & S1 & NZ & (NS1 & NS0 & TS) & WR).
  pose proof (six_unit e0 e1 e2 e3 e4 e5 T POK) as UE. pose proof (six_rigid e0 e1 e2 e3 e4 e5 T POK) as RD.
  pose proof (six_centre e0 e1 e2 e3 e4 e5 T w x y reversed target POK WP t0 t1 t2 t3 t4 t5 EV) as GW.
  destruct (six_wrist e0 e1 e2 e3 e4 e5 T w x y reversed target POK WP t0 t1 t2 t3 t4 t5 EV WR) as [F2 F3]. fold p G D0 D1 D2 D3 D4 in GW, F2, F3.
  assert (U0 : unit (e_axis e0)) by (apply UE; cbn; auto). assert (U1 : unit (e_axis e1)) by (apply UE; cbn; auto). assert (U2 : unit (e_axis e2)) by (apply UE; cbn; auto).
  assert (F0 : finds (pg3_solve 2 e2 w r G fid) 2 [(2%nat, t2)]).
  { apply pg3_used; auto.
    - rewrite GW, fapp_id. change (move1 e2 t2 w) with (fapp D2 w).
      assert (Er : r = fapp D0 (fapp D1 r)) by (unfold D0, D1; now rewrite (axis_stays e1 r), (axis_stays e0 r)).
      rewrite Er at 2. unfold D0, D1. rewrite !dist_rigid by (apply RD; cbn; auto). reflexivity.
    - rewrite fapp_id. exact NZ. }
  assert (F1 : finds (pk2_solve 0 1 e0 e1 w r G D2) 2 [(0%nat, t0); (1%nat, t1)]) by (apply pk2_used; auto).
  destruct F0 as (k0 & K0 & g0 & m0 & X0 & L0), F1 as (k1 & K1 & g1 & m1 & X1 & L1), F2 as (k2 & K2 & g2 & m2 & X2 & L2), F3 as (k3 & K3 & g3 & m3 & X3 & L3).
  destruct (path_candidate p reversed target ss flag cands [k0; k1; k2; k3] POK (sliding_steps_ok e0 e1 e2 e3 e4 e5 T r w x y) (sliding_in_order e0 e1 e2 e3 e4 e5 T r w x y) ltac:(discriminate) SV) as (q' & ok & IQ & DV).
  { do 4 (constructor; [cbn; lia|]). constructor. }
  apply sliding_path in DV. cbv zeta in DV. fold p G in DV.
  destruct DV as (h0 & n0 & loc0 & h1 & n1 & loc1 & h2 & n2 & loc2 & h3 & n3 & loc3 & V0 & N0 & V1 & N1 & V2 & N2 & V3 & N3 & EQ & _).
  rewrite X0 in V0. assert (X : loc0 = [(2%nat, t2)]) by (clear - V0 N0 L0; congruence). subst loc0. clear V0 N0.
  assert (E1 : displ p reversed (assign p reversed [(2%nat, t2)] (repeat 0 6)) 2 = D2) by (unfold D2; located).
  rewrite E1, X1 in V1. assert (X : loc1 = [(0%nat, t0); (1%nat, t1)]) by (clear - V1 N1 L1; congruence). subst loc1. clear V1 N1 E1.
  set (q2 := assign p reversed [(0%nat, t0); (1%nat, t1)] (assign p reversed [(2%nat, t2)] (repeat 0 6))) in *.
  assert (E2 : product p reversed q2 0 3 = fmul D0 (fmul D1 (fmul D2 fid))).
  { cbn [product seq fold_right]. assert (A0 : displ p reversed q2 0 = D0) by (unfold q2, D0; located). assert (A1 : displ p reversed q2 1 = D1) by (unfold q2, D1; located).
    assert (A2 : displ p reversed q2 2 = D2) by (unfold q2, D2; located). now rewrite A0, A1, A2. }
  rewrite E2, X2 in V2. assert (X : loc2 = [(3%nat, t3); (4%nat, t4)]) by (clear - V2 N2 L2; congruence). subst loc2. clear V2 N2 E2.
  set (q3 := assign p reversed [(3%nat, t3); (4%nat, t4)] q2) in *.
  assert (E3 : product p reversed q3 0 5 = fmul D0 (fmul D1 (fmul D2 (fmul D3 (fmul D4 fid))))).
  { cbn [product seq fold_right]. assert (A0 : displ p reversed q3 0 = D0) by (unfold q3, q2, D0; located). assert (A1 : displ p reversed q3 1 = D1) by (unfold q3, q2, D1; located).
    assert (A2 : displ p reversed q3 2 = D2) by (unfold q3, q2, D2; located). assert (A3 : displ p reversed q3 3 = D3) by (unfold q3, q2, D3; located).
    assert (A4 : displ p reversed q3 4 = D4) by (unfold q3, q2, D4; located). now rewrite A0, A1, A2, A3, A4. }
  rewrite E3, X3 in V3. assert (X : loc3 = [(5%nat, t5)]) by (clear - V3 N3 L3; congruence). subst loc3. clear V3 N3 E3.
  assert (X : q' = q).
  { rewrite EQ. unfold q3, q2, assign, slot. clear - TH. destruct reversed.
    - assert (q = rev_neg [t0; t1; t2; t3; t4; t5]) as -> by (rewrite <- TH; symmetry; apply rev_neg_rev_neg). reflexivity.
    - rewrite TH. reflexivity. }
  rewrite <- X. exact IQ.
Qed.
End SlidingFound.

Section LinearFound.
Variables (e0 e1 e2 e3 e4 e5 : mexp) (T : frame) (w x y : vec) (reversed : bool) (target : frame).
Let p := P [e0; e1; e2; e3; e4; e5] T.
Let G := goal p reversed target.
Hypothesis POK : poe_ok p.
Hypothesis SA : linear_arm (exps p) w x y.
Let ss := linear_steps (exps p) w x y.
Variables (t0 t1 t2 t3 t4 t5 : R) (q : list R).
Hypothesis TH : (if reversed then rev_neg q else q) = [t0; t1; t2; t3; t4; t5].
Hypothesis EV : evaluate p [t0; t1; t2; t3; t4; t5] = Some (if reversed then finv target else target).
Hypothesis RG : linear_regular (exps p) w x [t0; t1; t2; t3; t4; t5].
Let D0 := asFrame e0 t0. Let D1 := asFrame e1 t1. Let D2 := asFrame e2 t2. Let D3 := asFrame e3 t3. Let D4 := asFrame e4 t4. Let D5 := asFrame e5 t5. 

Lemma linear_found : exists flag cands, ik_solve p (map sub_step ss) reversed target = Some (flag, cands) /\ In q cands.
Proof.
  destruct (linear_defined e0 e1 e2 e3 e4 e5 T w x y reversed target POK SA) as (flag & cands & SV). exists flag, cands. split; [exact SV|].
  pose proof SA as SA'. cbn [linear_arm exps p] in SA'. destruct SA' as (M0 & M1 & M2 & PA0 & PA2 & AP & WP).
  pose proof RG as RG'. cbn [linear_regular exps p] in RG'. destruct RG' as ((S1 & S2 & NS2 & NS1 & UF) & WR).
  pose proof (six_unit e0 e1 e2 e3 e4 e5 T POK) as UE. pose proof (six_rigid e0 e1 e2 e3 e4 e5 T POK) as RD.
  pose proof (six_centre e0 e1 e2 e3 e4 e5 T w x y reversed target POK WP t0 t1 t2 t3 t4 t5 EV) as GW.
  destruct (six_wrist e0 e1 e2 e3 e4 e5 T w x y reversed target POK WP t0 t1 t2 t3 t4 t5 EV WR) as [F2 F3]. fold p G D0 D1 D2 D3 D4 in GW, F2, F3.
  assert (U0 : unit (e_axis e0)) by (apply UE; cbn; auto). assert (U1 : unit (e_axis e1)) by (apply UE; cbn; auto). assert (U2 : unit (e_axis e2)) by (apply UE; cbn; auto).
  assert (F0 : finds (pg1_solve 0 e0 w G fid) 1 [(0%nat, t0)]).
  { apply pg1_used. rewrite GW, fapp_id. unfold D0. rewrite slides by exact M0.
    destruct (parallel_sign _ _ PA0) as (s & SS & A).
    pose proof (kept_level e1 e1 t1 (fapp D2 w) U1 U1 M1 (or_introl eq_refl)) as L1. pose proof (kept_level e1 e2 t2 w U1 U2 M2 PA2) as L2. fold D1 in L1. fold D2 in L2.
    replace (vsub (vadd (fapp D1 (fapp D2 w)) (vscale t0 (e_axis e0))) w)
      with (vadd (vadd (vsub (fapp D1 (fapp D2 w)) (fapp D2 w)) (vsub (fapp D2 w) w)) (vscale t0 (e_axis e0))) by (generalize (fapp D1 (fapp D2 w)), (fapp D2 w), (e_axis e0); intros; vlin).
    rewrite !dot_add_r, dot_scale_r, U0. rewrite A at 1 2. rewrite !dot_scale_l, L1, L2. ring. }
  assert (GW2 : fapp (fmul (finv (fmul D0 fid)) G) w = fapp D1 (fapp D2 w)).
  { rewrite fmul_id_r, (fapp_fmul (finv D0)), GW, fapp_inv_l by (apply RD; cbn; auto). reflexivity. }
  assert (F1 : finds (pg4_solve 1 2 e1 e2 w (fmul (finv (fmul D0 fid)) G) fid) 2 [(1%nat, t1); (2%nat, t2)]).
  { apply pg4_used; rewrite ?GW2, ?fapp_id; auto. }
  destruct F0 as (k0 & K0 & g0 & m0 & X0 & L0), F1 as (k1 & K1 & g1 & m1 & X1 & L1), F2 as (k2 & K2 & g2 & m2 & X2 & L2), F3 as (k3 & K3 & g3 & m3 & X3 & L3).
  destruct (path_candidate p reversed target ss flag cands [k0; k1; k2; k3] POK (linear_steps_ok e0 e1 e2 e3 e4 e5 T w x y) (linear_in_order e0 e1 e2 e3 e4 e5 T w x y) ltac:(discriminate) SV) as (q' & ok & IQ & DV).
  { do 4 (constructor; [cbn; lia|]). constructor. }
  apply linear_path in DV. cbv zeta in DV. fold p G in DV.
  destruct DV as (h0 & n0 & loc0 & h1 & n1 & loc1 & h2 & n2 & loc2 & h3 & n3 & loc3 & V0 & N0 & V1 & N1 & V2 & N2 & V3 & N3 & EQ & _).
  rewrite X0 in V0. assert (X : loc0 = [(0%nat, t0)]) by (clear - V0 N0 L0; congruence). subst loc0. clear V0 N0.
  assert (E1 : product p reversed (assign p reversed [(0%nat, t0)] (repeat 0 6)) 0 1 = fmul D0 fid).
  { cbn [product seq fold_right]. f_equal. unfold D0. located. }
  rewrite E1, X1 in V1. assert (X : loc1 = [(1%nat, t1); (2%nat, t2)]) by (clear - V1 N1 L1; congruence). subst loc1. clear V1 N1 E1.
  set (q2 := assign p reversed [(1%nat, t1); (2%nat, t2)] (assign p reversed [(0%nat, t0)] (repeat 0 6))) in *.
  assert (E2 : product p reversed q2 0 3 = fmul D0 (fmul D1 (fmul D2 fid))).
  { cbn [product seq fold_right]. assert (A0 : displ p reversed q2 0 = D0) by (unfold q2, D0; located). assert (A1 : displ p reversed q2 1 = D1) by (unfold q2, D1; located).
    assert (A2 : displ p reversed q2 2 = D2) by (unfold q2, D2; located). now rewrite A0, A1, A2. }
  rewrite E2, X2 in V2. assert (X : loc2 = [(3%nat, t3); (4%nat, t4)]) by (clear - V2 N2 L2; congruence). subst loc2. clear V2 N2 E2.
  set (q3 := assign p reversed [(3%nat, t3); (4%nat, t4)] q2) in *.
  assert (E3 : product p reversed q3 0 5 = fmul D0 (fmul D1 (fmul D2 (fmul D3 (fmul D4 fid))))).
  { cbn [product seq fold_right]. assert (A0 : displ p reversed q3 0 = D0) by (unfold q3, q2, D0; located). assert (A1 : displ p reversed q3 1 = D1) by (unfold q3, q2, D1; located).
    assert (A2 : displ p reversed q3 2 = D2) by (unfold q3, q2, D2; located). assert (A3 : displ p reversed q3 3 = D3) by (unfold q3, q2, D3; located).
    assert (A4 : displ p reversed q3 4 = D4) by (unfold q3, q2, D4; located). now rewrite A0, A1, A2, A3, A4. }
  rewrite E3, X3 in V3. assert (X : loc3 = [(5%nat, t5)]) by (clear - V3 N3 L3; congruence). subst loc3. clear V3 N3 E3.
  assert (X : q' = q).
  { rewrite EQ. unfold q3, q2, assign, slot. clear - TH. destruct reversed.
    - assert (q = rev_neg [t0; t1; t2; t3; t4; t5]) as -> by (rewrite <- TH; symmetry; apply rev_neg_rev_neg). reflexivity.
    - rewrite TH. reflexivity. }
  rewrite <- X. exact IQ.
Qed.
End LinearFound.

Section ScaraFound.
Variables (e0 e1 e2 e3 : mexp) (T : frame) (w y : vec) (reversed : bool) (target : frame).
Let p := P [e0; e1; e2; e3] T.
Let G := goal p reversed target.
Hypothesis POK : poe_ok p.
Hypothesis SA : scara_arm (exps p) w y.
Let ss := scara_steps (exps p) w y.
Variables (t0 t1 t2 t3 : R) (q : list R).
Hypothesis TH : (if reversed then rev_neg q else q) = [t0; t1; t2; t3].
Hypothesis EV : evaluate p [t0; t1; t2; t3] = Some (if reversed then finv target else target).
Hypothesis RG : scara_regular (exps p) w [t0; t1; t2; t3].
Let D0 := asFrame e0 t0. Let D1 := asFrame e1 t1. Let D2 := asFrame e2 t2. Let D3 := asFrame e3 t3.
Let A := fmul D0 (fmul D1 (fmul D2 fid)).

Lemma scara_goal : G = fmul A D3.
Proof.
  rewrite evaluate_some in EV by reflexivity. unfold G, goal.
  assert (Q : (if reversed then finv target else target) = fmul (eval_terms (exps p) [t0; t1; t2; t3] fid) T) by (symmetry; exact (f_equal (fun o => match o with Some z => z | None => fid end) EV)).
  rewrite Q. change (tool p) with T. rewrite fmul_assoc, fmul_inv_r by apply POK. rewrite fmul_id_r.
  change (exps p) with [e0; e1; e2; e3]. rewrite !eval_terms_step. cbn [eval_terms]. unfold A. fold D0 D1 D2 D3. rewrite !fmul_id_r, !fmul_assoc. reflexivity.
Qed.
Lemma scara_found : exists flag cands, ik_solve p (map sub_step ss) reversed target = Some (flag, cands) /\ In q cands.
Proof.
  destruct (scara_defined e0 e1 e2 e3 T w y reversed target POK SA) as (flag & cands & SV). exists flag, cands. split; [exact SV|].
  pose proof SA as SA'. cbn [scara_arm exps p] in SA'. destruct SA' as (M0 & M1 & M2 & M3 & PA1 & PA2 & PA3 & AP & W3 & N3).
  pose proof RG as RG'. cbn [scara_regular exps p] in RG'. destruct RG' as ((S0 & S1 & NS1 & NS0 & UF) & S3).
  pose proof (scara_unit e0 e1 e2 e3 T POK) as UE.
  assert (U0 : unit (e_axis e0)) by (apply UE; cbn; auto). assert (U1 : unit (e_axis e1)) by (apply UE; cbn; auto). assert (U2 : unit (e_axis e2)) by (apply UE; cbn; auto). assert (U3 : unit (e_axis e3)) by (apply UE; cbn; auto).
  destruct (parallel_sign _ _ PA1) as (s1 & SS1 & A1). destruct (parallel_sign _ _ PA2) as (s2 & SS2 & A2).
  set (c := vadd w (vscale t2 (e_axis e2))).
  assert (DW : fapp D2 w = c) by (apply slides; exact M2).
  assert (GW : fapp G w = fapp D0 (fapp D1 c)).
  { rewrite scara_goal. unfold A. rewrite fmul_id_r, (fapp_fmul (fmul D0 (fmul D1 D2))). unfold D3. rewrite (axis_stays e3 w) by auto.
    rewrite (fapp_fmul D0), (fapp_fmul D1), DW. reflexivity. }
  assert (F0 : finds (pg1_solve 2 e2 w G fid) 1 [(2%nat, t2)]).
  { apply pg1_used. rewrite GW, fapp_id.
    pose proof (kept_level e0 e0 t0 (fapp D1 c) U0 U0 M0 (or_introl eq_refl)) as L0. pose proof (kept_level e0 e1 t1 c U0 U1 M1 PA1) as L1. fold D0 in L0. fold D1 in L1.
    replace (vsub (fapp D0 (fapp D1 c)) w)
      with (vadd (vadd (vsub (fapp D0 (fapp D1 c)) (fapp D1 c)) (vsub (fapp D1 c) c)) (vscale t2 (e_axis e2)))
      by (unfold c at 4; generalize (fapp D0 (fapp D1 c)), (fapp D1 c), (e_axis e2); intros; vlin).
    rewrite !dot_add_r, dot_scale_r, U2. rewrite A2 at 1 2. rewrite !dot_scale_l, L0, L1. ring. }
  assert (MV : forall e, e = e0 \/ e = e1 -> exists k, e_axis e2 = vscale k (e_axis e)).
  { intros e [-> | ->]; [exists s2; exact A2|]. exists (s2 * s1). rewrite A2, A1. destruct (e_axis e0); apply vec_eq; cbn; rewrite <- !Rmult_assoc, (Rmult_assoc s2), SS1; ring. }
  assert (K : forall e t z, (e = e0 \/ e = e1) -> fapp (asFrame e t) (vadd z (vscale t2 (e_axis e2))) = vadd (fapp (asFrame e t) z) (vscale t2 (e_axis e2))).
  { intros e t z H. rewrite shifted, mv_scale. do 2 f_equal. rewrite A2, mv_scale. f_equal.
    apply axis_kept; [exact U0|]. destruct H as [-> | ->]; [left; reflexivity|exact PA1]. }
  assert (F1 : finds (pg4_solve 0 1 e0 e1 w G D2) 2 [(0%nat, t0); (1%nat, t1)]).
  { apply pg4_used; auto; rewrite DW.
    - symmetry. exact GW.
    - rewrite GW. unfold unfolded in *. unfold c, D0, D1. rewrite !K by auto. rewrite !away_slide by auto. exact UF.
    - apply off_slide; auto.
    - unfold move1, c in *. rewrite K by auto. apply off_slide; auto. }
  assert (F2 : finds (pk1_solve 3 e3 y (fmul (finv A) G) fid) 1 [(3%nat, t3)]).
  { apply pk1_used; rewrite ?fapp_id; auto. rewrite scara_goal, <- fmul_assoc, fmul_inv_l, fmul_id_l; [reflexivity|].
    repeat apply rigid_mul; try apply rigid_id; apply asFrame_rigid; assumption. }
  destruct F0 as (k0 & K0 & g0 & m0 & X0 & L0), F1 as (k1 & K1 & g1 & m1 & X1 & L1), F2 as (k2 & K2 & g2 & m2 & X2 & L2).
  destruct (path_candidate p reversed target ss flag cands [k0; k1; k2] POK (scara_steps_ok e0 e1 e2 e3 T w y) (scara_in_order e0 e1 e2 e3 T w y) ltac:(discriminate) SV) as (q' & ok & IQ & DV).
  { do 3 (constructor; [cbn; lia|]). constructor. }
  apply scara_path in DV. cbv zeta in DV. fold p G in DV.
  destruct DV as (h0 & n0 & loc0 & h1 & n1 & loc1 & h2 & n2 & loc2 & V0 & N0 & V1 & N1 & V2 & N2 & EQ & _).
  rewrite X0 in V0. assert (X : loc0 = [(2%nat, t2)]) by (clear - V0 N0 L0; congruence). subst loc0. clear V0 N0.
  assert (E1 : displ p reversed (assign p reversed [(2%nat, t2)] (repeat 0 4)) 2 = D2) by (unfold D2; located).
  rewrite E1, X1 in V1. assert (X : loc1 = [(0%nat, t0); (1%nat, t1)]) by (clear - V1 N1 L1; congruence). subst loc1. clear V1 N1 E1.
  set (q2 := assign p reversed [(0%nat, t0); (1%nat, t1)] (assign p reversed [(2%nat, t2)] (repeat 0 4))) in *.
  assert (E2 : product p reversed q2 0 3 = A).
  { cbn [product seq fold_right]. assert (B0 : displ p reversed q2 0 = D0) by (unfold q2, D0; located). assert (B1 : displ p reversed q2 1 = D1) by (unfold q2, D1; located).
    assert (B2 : displ p reversed q2 2 = D2) by (unfold q2, D2; located). now rewrite B0, B1, B2. }
  rewrite E2, X2 in V2. assert (X : loc2 = [(3%nat, t3)]) by (clear - V2 N2 L2; congruence). subst loc2. clear V2 N2 E2.
  assert (X : q' = q).
  { rewrite EQ. unfold q2, assign, slot. clear - TH. destruct reversed.
    - assert (q = rev_neg [t0; t1; t2; t3]) as -> by (rewrite <- TH; symmetry; apply rev_neg_rev_neg). reflexivity.
    - rewrite TH. reflexivity. }
  rewrite <- X. exact IQ.
Qed.
End ScaraFound.
