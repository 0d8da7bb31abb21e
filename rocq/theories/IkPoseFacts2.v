(** Proofs about the poses of the candidates for arms with a spherical wrist. *)
From Coq Require Import Reals Lra List Bool Lia Arith.
From Verif Require Import Kdl KdlFacts Screw ScrewFacts Trig TrigFacts Subproblems SubproblemFacts SubproblemFacts2 SubproblemFacts3 SubproblemFacts4 SubproblemFacts5 SubproblemFacts6
  IkProblem IkSpec IkProblemFacts IkProblemFacts2 IkProblemFacts3 Builder BuilderSpec IkPoseSpec IkPoseFacts.
Import ListNotations.
Open Scope R_scope.
Local Notation S := Datatypes.S.

Lemma off_axis : forall e x, unit (e_axis e) -> ~ on_axis e x -> perp (e_axis e) (vsub x (e_origin e)) <> vzero.
Proof.
  intros [m a o] x U N Z. apply N. exists (dot a (vsub x o)). unfold point_on. cbn [e_axis e_origin] in *.
  pose proof (perp_split a (vsub x o)) as P. rewrite Z in P. unfold vadd, vsub, vscale, vzero in *. cbn [vx vy vz] in *.
  injection P; intros. apply vec_eq; cbn [vx vy vz]; lra.
Qed.
Lemma vnorm_nz : forall v, v <> vzero -> norm v <> 0.
Proof. intros v N Z. apply N. now apply norm_zero. Qed.
Lemma axis_fixed : forall e x t, unit (e_axis e) -> e_motion e = ROTATION -> on_axis e x -> move1 e t x = x.
Proof.
  intros [m a o] x t U M (s & ->). cbn in U, M. subst m. unfold point_on. cbn [e_axis e_origin]. rewrite move_rot by exact U.
  replace (vsub (vadd o (vscale s a)) o) with (vscale s a) by vlin. rewrite mv_scale, Rot2_axis by exact U. reflexivity.
Qed.

Section Wrist.
Variables (e0 e1 e2 e3 e4 e5 : mexp) (T : frame) (r w x y : vec) (reversed : bool) (target : frame).
Let p := P [e0; e1; e2; e3; e4; e5] T.
Hypothesis POK : poe_ok p.
Hypothesis WA : wrist_arm (exps p) r w x y.
Let ss := wrist_steps (exps p) r w x y.

Lemma wrist_steps_ok : steps_ok 6 (problem_steps ss).
Proof.
  split; [|split].
  - intros s ids [E|[E|[E|[E|[]]]]]; injection E as <- <-; [apply pk3_ok|apply pk2_ok|apply pk2_ok|apply pk1_ok].
  - cbn. repeat constructor; cbn; lia.
  - cbn. lia.
Qed.
Lemma wrist_in_order : in_order p (problem_steps ss).
Proof.
  intros ss0 s ids ss1 E.
  assert (FU : forall K a b, first_unknown p K a -> first_unknown p K b -> a = b) by (intros; eapply first_unknown_eq; eauto).
  destruct ss0 as [|? [|? [|? [|? ss0]]]].
  - left. reflexivity.
  - right. intros a FA. cbn in E. injection E; intros; subst. cbn in FA.
    rewrite (FU _ _ 0%nat FA) by (repeat split; cbn; lia). cbn. lia.
  - right. intros a FA. cbn in E. injection E; intros; subst. cbn in FA.
    rewrite (FU _ _ 3%nat FA) by (repeat split; cbn; lia). cbn. lia.
  - right. intros a FA. cbn in E. injection E; intros; subst. cbn in FA.
    rewrite (FU _ _ 5%nat FA) by (repeat split; cbn; lia). cbn. lia.
  - cbn in E. injection E; intros. destruct ss0; discriminate.
Qed.

Lemma wrist_sound : forall cands q, rigid target ->
  ik_solve p (map sub_step ss) reversed target = Some (true, cands) -> In q cands ->
  exists f, evaluate p (if reversed then rev_neg q else q) = Some f /\ rigid f /\
    forall a b c,
      let z := combination w (vsub x w) (vsub y w) a b c in
      let d0 := sqrt kdl_eps + kdl_eps * (2 + 2 * (dist w (e_origin e2) + dist r (e_origin e2))) in
      let d1 := sqrt kdl_eps + kdl_eps * (2 + 2 * dist x w) in
      let d2 := 3 * kdl_eps + kdl_eps * dist y (e_origin e5) in
      dist (carried p f z) (carried p (if reversed then finv target else target) z) <=
        d0 + Rabs a * (d0 + d1) + Rabs b * (d0 + d2) + Rabs c * ((d0 + d1) * dist y w + (d0 + d2) * dist x w).
Proof.
  intros cands q RT SV I.
  destruct (points p reversed target POK ss cands q RT wrist_steps_ok wrist_in_order) as (f & EV & RF & PT); [discriminate|exact SV|exact I|].
  exists f. split; [exact EV|]. split; [exact RF|]. intros a b c z d0 d1 d2.
  cbn in WA. destruct WA as (NT & R0 & R1 & W3 & W4 & W5 & X5 & C01 & C34 & N2w & N2r & N4 & N5).
  pose proof POK as [UU RTo]. cbn in UU, RTo. unfold no_translation in NT.
  assert (UE : forall e, In e (exps p) -> unit (e_axis e) /\ e_motion e = ROTATION).
  { rewrite Forall_forall in UU, NT. auto. }
  assert (FX : forall i e v, nth_error (exps p) i = Some e -> on_axis e v -> fixes (exps p) i v).
  { intros i e v N O. exists e. split; [exact N|]. intro t. apply nth_error_In, UE in N. apply axis_fixed; tauto. }
  assert (U2 : unit (e_axis e2)) by (apply UE; cbn; auto).
  assert (P0 : dist (carried p f w) (carried p (if reversed then finv target else target) w) <= d0).
  { eapply Rle_trans; [apply (PT [SPK3 2 e2 w r] (SPK2 0 1 e0 e1 w r) [SPK2 3 4 e3 e4 x w; SPK1 5 e5 y]); [reflexivity|]|].
    - cbn [aims]. split; [reflexivity|]. split; [reflexivity|]. split; [reflexivity|]. split; [reflexivity|].
      split; [apply UE; cbn; auto|]. split; [apply UE; cbn; auto|].
      split. { destruct R0 as (t1 & Q1), R1 as (t2 & Q2). exists t1, t2. auto. }
      split; [exact C01|]. cbn [concat map sub_ids app]. split; [cbn; lia|]. split; [cbn; lia|]. split; [lia|].
      split; [cbn; lia|]. exists 3%nat. split; [cbn; lia|]. split; [cbn; lia|].
      intros i Hi. cbn in Hi. split; [cbn; lia|].
      assert (Q : i = 3%nat \/ i = 4%nat \/ i = 5%nat) by lia. destruct Q as [-> | [-> | ->]]; eapply FX; try reflexivity; assumption.
    - cbn [allowance]. unfold d0. apply Rplus_le_compat_l. apply Rmult_le_compat_l; [pose proof kdl_eps_pos; lra|].
      apply Rplus_le_compat_l. apply Rmult_le_compat_l; [lra|]. unfold arm_length. change (length (exps p)) with 6%nat. change (6 - 2)%nat with 4%nat.
      rewrite product_cons, fapp_fmul. rewrite (fixed_tail p reversed q w 3 3); [|reflexivity|].
      + unfold displ. change (nth 2 (exps p) (E ROTATION vzero vzero)) with e2.
        match goal with |- dist (fapp (asFrame e2 ?t) w) r <= _ => change (fapp (asFrame e2 t) w) with (move1 e2 t w); generalize t; intro t0 end.
        unfold dist. eapply Rle_trans; [apply (norm_triangle3 _ (e_origin e2))|]. apply Rplus_le_compat.
        * destruct (UE e2) as [_ M2]; [cbn; auto|]. destruct e2 as [m2 a2 o2]. cbn [e_motion] in M2. cbn [e_axis] in U2. subst m2. cbn [e_origin].
          rewrite move_rot_sub by exact U2. rewrite norm_rot by (apply Rot2_rot; exact U2). lra.
        * apply Req_le. apply norm_eq_iff. vring.
      + intros i Hi. cbn in Hi. assert (Q : i = 3%nat \/ i = 4%nat \/ i = 5%nat) by lia. destruct Q as [-> | [-> | ->]]; eapply FX; try reflexivity; assumption. }
  assert (P1 : dist (carried p f x) (carried p (if reversed then finv target else target) x) <= d1).
  { eapply Rle_trans; [apply (PT [SPK3 2 e2 w r; SPK2 0 1 e0 e1 w r] (SPK2 3 4 e3 e4 x w) [SPK1 5 e5 y]); [reflexivity|]|].
    - cbn [aims]. split; [reflexivity|]. split; [reflexivity|]. split; [reflexivity|]. split; [reflexivity|].
      split; [apply UE; cbn; auto 10|]. split; [apply UE; cbn; auto 10|].
      split. { destruct W3 as (t1 & Q1), W4 as (t2 & Q2). exists t1, t2. auto. }
      split; [exact C34|]. cbn [concat map sub_ids app]. split; [cbn; lia|]. split; [cbn; lia|]. split; [cbn; lia|].
      split; [cbn; lia|]. exists 5%nat. split; [cbn; lia|]. split; [cbn; lia|].
      intros i Hi. cbn in Hi. split; [cbn; lia|].
      assert (Q : i = 5%nat) by lia. subst. eapply FX; try reflexivity; assumption.
    - cbn [allowance]. unfold arm_length. change (length (exps p)) with 6%nat.
      rewrite (fixed_tail p reversed q x (6 - 5) 5); [unfold d1; lra|reflexivity|].
      intros i Hi. cbn in Hi. assert (Q : i = 5%nat) by lia. subst. eapply FX; try reflexivity; assumption. }
  assert (P2 : dist (carried p f y) (carried p (if reversed then finv target else target) y) <= d2).
  { eapply Rle_trans; [apply (PT [SPK3 2 e2 w r; SPK2 0 1 e0 e1 w r; SPK2 3 4 e3 e4 x w] (SPK1 5 e5 y) []); [reflexivity|]|].
    - cbn [aims]. split; [reflexivity|]. split; [reflexivity|]. split; [apply UE; cbn; auto 10|].
      cbn [concat map sub_ids app]. split; [cbn; lia|]. split; [cbn; lia|].
      split; [cbn; lia|]. exists 6%nat. split; [cbn; lia|]. split; [cbn; lia|]. intros i Hi. cbn in Hi. lia.
    - cbn [allowance]. unfold arm_length. change (length (exps p)) with 6%nat. change (6 - 6)%nat with 0%nat.
      change (product p reversed q 6 0) with fid. rewrite fapp_id. unfold d2. lra. }
  assert (CA : forall g v, carried p g v = fapp (fmul g (finv T)) v) by (intros; unfold carried; now rewrite fapp_fmul).
  rewrite !CA in *. apply pose_bound; try assumption.
  - apply rigid_mul; [exact RF|apply rigid_inv; exact RTo].
  - apply rigid_mul; [destruct reversed; [apply rigid_inv; exact RT|exact RT]|apply rigid_inv; exact RTo].
Qed.
End Wrist.

(** every point is a combination of three that are not in line *)
Lemma combinations : forall e w x y, unit (e_axis e) -> on_axis e w -> on_axis e x -> w <> x -> ~ on_axis e y ->
  forall z, exists a b c, z = combination w (vsub x w) (vsub y w) a b c.
Proof.
  intros e w x y U (s & Ew) (t & Ex) N O z. set (u := vsub x w). set (v := vsub y w).
  assert (C : cross u v <> vzero).
  { intro C. apply O.
    assert (Eu : u = vscale (t - s) (e_axis e)) by (unfold u; rewrite Ew, Ex; unfold point_on; destruct (e_origin e), (e_axis e); vlin).
    assert (K : t - s <> 0). { intro Z. apply N. rewrite Ew, Ex. replace t with s by lra. reflexivity. }
    assert (Cv : cross (e_axis e) v = vzero).
    { rewrite Eu in C. revert C. generalize (e_axis e), v. clear - K. intros a v C. unfold cross, vscale, vzero in *. cbn [vx vy vz] in *.
      injection C; intros C3 C2 C1. apply vec_eq; cbn [vx vy vz]; apply Rmult_eq_reg_l with (t - s); try assumption; lra. }
    assert (D : v = vscale (dot (e_axis e) v) (e_axis e)).
    { pose proof (f_equal (fun q => cross q (e_axis e)) Cv) as Q. cbv beta in Q.
      revert U Q. generalize (e_axis e), v. clear. intros a v U Q. unfold unit in U.
      assert (cross (cross a v) a = vsub (vscale (dot a a) v) (vscale (dot a v) a)) as Q' by vring. rewrite Q' in Q. rewrite U in Q.
      clear Q'. revert Q. generalize (dot a v). intros d Q. unfold cross, vsub, vscale, vzero in *. cbn [vx vy vz] in *. injection Q; intros. apply vec_eq; cbn [vx vy vz]; lra. }
    exists (s + dot (e_axis e) v). unfold point_on in *. revert D. generalize (dot (e_axis e) v). intros d D.
    transitivity (vadd w v); [unfold v; vlin|]. rewrite D, Ew. destruct (e_origin e), (e_axis e); vlin. }
  set (N2 := dot (cross u v) (cross u v)).
  assert (NZ : N2 <> 0) by (intro Z; apply C; now apply dot_self_zero).
  pose proof (basis_decomp u v (vsub z w)) as B. fold N2 in B.
  exists ((dot u (vsub z w) * dot v v - dot v (vsub z w) * dot u v) / N2),
         ((dot v (vsub z w) * dot u u - dot u (vsub z w) * dot u v) / N2), (dot (vsub z w) (cross u v) / N2).
  revert B. generalize (dot u (vsub z w) * dot v v - dot v (vsub z w) * dot u v), (dot v (vsub z w) * dot u u - dot u (vsub z w) * dot u v), (dot (vsub z w) (cross u v)).
  intros a b c B. unfold combination. revert B NZ. generalize (cross u v). clearbody N2. intros k B NZ.
  assert (E : z = vadd w (vscale (/ N2) (vscale N2 (vsub z w)))).
  { apply vec_eq; cbn; field; exact NZ. }
  rewrite E at 1. rewrite B. apply vec_eq; cbn; field; exact NZ.
Qed.
