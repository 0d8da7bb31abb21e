(** The methods invDyn of the device. *)
From Coq Require Import Reals Lra Lia List Bool Arith.
From Verif Require Import Kdl KdlFacts KdlRot KinRep KdlSolver Ft Config Tree TreeSpec Dyn AsibotSpec DynSpec DynFacts DynFacts2 DynFacts3 DynFacts4 DynFacts5.
Import ListNotations.
Open Scope R_scope.
Local Notation length := List.length.

Lemma joints_in_some : forall c q qr, joints_in c q = Some qr -> (nr_of_joints c <= length q)%nat /\ qr = map degToRad (firstn (nr_of_joints c) q) /\ length qr = nr_of_joints c.
Proof.
  intros c q qr H. unfold joints_in in H. destruct (Nat.leb _ _) eqn:B; [|discriminate]. apply Nat.leb_le in B. injection H as <-.
  split; [exact B|]. split; [reflexivity|]. rewrite map_length, firstn_length. lia.
Qed.
Theorem gravity_holds : forall vel g bs s q ts, solid (sv_chain s) -> (length bs <= length (sv_chain s))%nat ->
  gravityDyn (dyn_solvers vel g (map inertia_of bs)) s q = TTrue ts ->
  let n := nr_of_joints (sv_chain s) in (n <= length q)%nat /\ length ts = n /\
  forall u, length u = n -> derivable_pt_lim (fun t => potential g bs (sv_chain s) (moving (map degToRad (firstn n q)) u t)) 0 (power ts u).
Proof.
  intros vel g bs s q ts H Lb E n. unfold gravityDyn in E. destruct (joints_in (sv_chain s) q) as [qr|] eqn:J; [|discriminate].
  destruct (joints_in_some _ _ _ J) as (B & -> & Lq). cbv zeta in E. cbn [dyn_solvers c_dyn] in E.
  destruct (rne _ _ _ _ _ _ _) as [t'|] eqn:E1; [|discriminate]. injection E as ->. split; [exact B|].
  assert (L : length ts = n). { apply (rne_rest g bs (sv_chain s) _ n _ _ (repeat 0 n) H Lb eq_refl E1). apply repeat_length. }
  split; [exact L|]. intros u Lu. destruct (rne_rest g bs (sv_chain s) _ n _ _ u H Lb eq_refl E1 Lu) as (_ & _ & ds & _ & D).
  rewrite none_there, Rplus_0_r in D. exact D.
Qed.

Lemma wrench_told : forall vel g is s q qd qdd ftip fr ts, invDyn (dyn_solvers vel g is) s q qd qdd ftip fr = TTrue ts ->
  exists qr qdr qddr f k w, joints_in (sv_chain s) q = Some qr /\ joints_in (sv_chain s) qd = Some qdr /\ joints_in (sv_chain s) qdd = Some qddr /\
    chain_fwd_kin (sv_chain s) qr = Some f /\ length (sv_chain s) = Datatypes.S k /\ rne g is (sv_chain s) qr qdr qddr (repeat wrench_zero k ++ [w]) = Some ts /\
    (rigid f -> wrot (fM f) w = base_axes fr f (vectorToWrench ftip)).
Proof.
  intros vel g is s q qd qdd ftip fr ts E. unfold invDyn in E.
  destruct (joints_in (sv_chain s) q) as [qr|] eqn:J1; [|discriminate]. destruct (joints_in (sv_chain s) qd) as [qdr|] eqn:J2; [|discriminate].
  destruct (joints_in (sv_chain s) qdd) as [qddr|] eqn:J3; [|discriminate].
  destruct (joints_in_some _ _ _ J1) as (_ & _ & L). destruct (fk_some (sv_chain s) fid qr L) as [f Ef].
  exists qr, qdr, qddr, f. cbv zeta in E. unfold chain_fwd_kin in *. rewrite Ef in E. cbn [option_map] in E.
  destruct fr; try discriminate; (destruct (length (sv_chain s)) as [|k] eqn:K; [discriminate|]); cbn [dyn_solvers c_dyn] in E;
    (destruct (rne _ _ _ _ _ _ _) as [t'|] eqn:E1; [|discriminate]); injection E as ->; exists k; eexists;
    (do 5 (split; [eassumption || reflexivity|])); (split; [exact E1|]); intro R; cbn [base_axes]; unfold wrot; cbn [w_force w_torque]; [|reflexivity].
  rewrite !mv_mT_r by exact R. destruct (vectorToWrench ftip); reflexivity.
Qed.
Lemma end_rigid : forall c q f, solid c -> chain_fwd_kin c q = Some f -> rigid f.
Proof.
  intros c q f H E. destruct c as [|s c]; [unfold chain_fwd_kin in E; cbn in E; destruct q; [injection E as <-; apply rigid_id | discriminate]|].
  destruct (places_last (s :: c) fid q f E ltac:(discriminate)) as [_ <-]. apply (place_rigid (s :: c) q (length (s :: c) - 1) H).
Qed.
Theorem force_balance : forall vel g bs s q ftip fr ts, solid (sv_chain s) -> (length bs <= length (sv_chain s))%nat ->
  let n := nr_of_joints (sv_chain s) in
  invDyn (dyn_solvers vel g (map inertia_of bs)) s q (repeat 0 n) (repeat 0 n) ftip fr = TTrue ts ->
  (n <= length q)%nat /\ length ts = n /\ exists f, chain_fwd_kin (sv_chain s) (map degToRad (firstn n q)) = Some f /\
  forall u p, length u = n -> (forall t, chain_fwd_kin (sv_chain s) (moving (map degToRad (firstn n q)) u t) = Some (p t)) ->
  exists d, velocity_of p 0 d /\
    derivable_pt_lim (fun t => potential g bs (sv_chain s) (moving (map degToRad (firstn n q)) u t)) 0 (power ts u + wrench_power (base_axes fr f (vectorToWrench ftip)) d).
Proof.
  intros vel g bs s q ftip fr ts H Lb n E.
  destruct (wrench_told _ _ _ _ _ _ _ _ _ _ E) as (qr & qdr & qddr & f & k & w & J1 & J2 & J3 & Ef & K & E1 & W).
  destruct (joints_in_some _ _ _ J1) as (B & -> & Lq). destruct (joints_in_some _ _ _ J2) as (_ & -> & _). destruct (joints_in_some _ _ _ J3) as (_ & -> & _). fold n in B, E1, Ef, Lq |- *.
  assert (Z : map degToRad (firstn n (repeat 0 n)) = repeat 0 n).
  { rewrite firstn_all2 by (rewrite repeat_length; lia). clear. induction n; cbn; [reflexivity|]. f_equal; [unfold degToRad; ring | assumption]. }
  rewrite Z in E1. split; [exact B|].
  assert (L : length ts = n). { apply (rne_rest g bs (sv_chain s) _ n _ _ (repeat 0 n) H Lb eq_refl E1). apply repeat_length. }
  split; [exact L|]. exists f. split; [exact Ef|]. intros u p Lu P.
  destruct (rne_rest g bs (sv_chain s) _ n _ _ u H Lb eq_refl E1 Lu) as (_ & _ & ds & Vd & D).
  assert (NE : sv_chain s <> []) by (intro N; rewrite N in K; discriminate).
  exists (ds k). rewrite K in D. rewrite only_last in D.
  destruct (places_last _ _ _ _ Ef NE) as [_ Pl]. rewrite K in Pl. replace (Datatypes.S k - 1)%nat with k in Pl by lia. unfold place in D. rewrite Pl in D.
  rewrite W in D by (eapply end_rigid; eassumption). split; [|exact D].
  eapply velocity_ext; [|apply (Vd k); rewrite K; lia]. intro t. cbv beta. destruct (places_last _ _ _ _ (P t) NE) as [_ Pt]. rewrite K in Pt. replace (Datatypes.S k - 1)%nat with k in Pt by lia. exact Pt.
Qed.
Lemma rne_length : forall g is c q qd qdd fs ts, solid c -> rne g is c q qd qdd fs = Some ts -> length ts = nr_of_joints c.
Proof.
  intros g is c q qd qdd fs ts H E1. unfold rne in E1. destruct (Nat.eqb _ _) eqn:Eq; [|discriminate]. apply Nat.eqb_eq in Eq. destruct (rne_pass _ _ _ _ _ _) as [[f1 ts1]|] eqn:E2; [|discriminate]. injection E1 as <-. cbn [snd].
  assert (Hb : Forall (fun b => sol (fst (fst b))) (loaded is c fs)).
  { apply Forall_forall. intros b Hb. unfold solid in H. rewrite Forall_forall in H. apply H. rewrite <- (loaded_chain is _ _ Eq) at 1. apply in_map_iff. exists b. auto. }
  pose proof (virtual_work _ _ _ twist_zero _ _ _ (repeat 0 (nr_of_joints c)) _ _ Hb E2) as V. cbv zeta in V. rewrite loaded_chain in V by exact Eq. apply V. apply repeat_length.
Qed.
Theorem invdyn_drives : forall vel g bs s q qd qdd ftip fr ts, solid (sv_chain s) ->
  invDyn (dyn_solvers vel g (map inertia_of bs)) s q qd qdd ftip fr = TTrue ts ->
  let n := nr_of_joints (sv_chain s) in let rad l := map degToRad (firstn n l) in
  length ts = n /\ exists f, chain_fwd_kin (sv_chain s) (rad q) = Some f /\
  forall js vs t, passes js vs t (rad q) (rad qd) (rad qdd) -> drives g bs (sv_chain s) js t (base_axes fr f (vectorToWrench ftip)) ts.
Proof.
  intros vel g bs s q qd qdd ftip fr ts H E n rad.
  destruct (wrench_told _ _ _ _ _ _ _ _ _ _ E) as (qr & qdr & qddr & f & k & w & J1 & J2 & J3 & Ef & K & E1 & W).
  destruct (joints_in_some _ _ _ J1) as (B & -> & Lq). destruct (joints_in_some _ _ _ J2) as (B2 & -> & L2). destruct (joints_in_some _ _ _ J3) as (B3 & -> & L3).
  fold n in B, B2, B3, E1, Ef, Lq, L2, L3 |- *. fold (rad q) in E1, Ef, Lq. fold (rad qd) in E1. fold (rad qdd) in E1.
  assert (L : length ts = n) by (eapply rne_length; eassumption).
  split; [exact L|]. exists f. split; [exact Ef|]. intros js vs t (D & DD & Q & V). unfold drives. intros u Lu.
  rewrite <- Q, <- V in E1. rewrite Q in Lu. rewrite Lq in Lu.
  destruct (rne_dalembert g bs (sv_chain s) js vs (rad qdd) t _ ts u H D DD E1 Lu) as (_ & ds & xs & P & S).
  assert (NE : sv_chain s <> []) by (intro N; rewrite N in K; discriminate).
  exists ds, xs. split; [exact P|]. rewrite <- S. rewrite K. rewrite only_last. replace (Datatypes.S k - 1)%nat with k by lia.
  destruct (places_last _ _ _ _ Ef NE) as [_ Pl]. rewrite K in Pl. replace (Datatypes.S k - 1)%nat with k in Pl by lia.
  unfold place, at_time. rewrite Q, Pl. rewrite W by (eapply end_rigid; eassumption). reflexivity.
Qed.

(** what drives is determined *)
Lemma power_basis : forall ts ts' n, length ts = n -> length ts' = n -> (forall u, length u = n -> power ts u = power ts' u) -> ts = ts'.
Proof.
  induction ts as [|a ts IH]; intros ts' n L L' H; subst n.
  - destruct ts'; [reflexivity|discriminate].
  - destruct ts' as [|a' ts']; [discriminate|]. f_equal.
    + specialize (H (1 :: repeat 0 (length ts))). unfold power in H. cbn [combine map fst snd sum fold_right length] in H. rewrite repeat_length in H. specialize (H eq_refl).
      assert (Z : forall (l : list R) k, fold_right Rplus 0 (map (fun p => fst p * snd p) (combine l (repeat 0 k))) = 0).
      { induction l as [|b l IHl]; intros [|k]; cbn; try reflexivity. rewrite IHl. ring. }
      rewrite !Z in H. lra.
    + apply (IH ts' (length ts)); [reflexivity | cbn in L'; lia|]. intros u Lu. specialize (H (0 :: u)). unfold power in *. cbn [combine map fst snd sum fold_right length] in H. specialize (H ltac:(lia)). unfold sum. lra.
Qed.
Theorem drives_unique : forall g bs c js vs t q v w W ts ts', solid c -> passes js vs t q v w -> length q = nr_of_joints c -> (0 < length c)%nat ->
  length ts = length q -> length ts' = length q -> drives g bs c js t W ts -> drives g bs c js t W ts' -> ts = ts'.
Proof.
  intros g bs c js vs t q v w W ts ts' H (P1 & P2 & P3 & P4) Lq Lc L L' D D'. apply (power_basis ts ts' (length q)); auto. intros u Lu.
  unfold drives in *. rewrite P3 in *. destruct (D u Lu) as (ds & xs & A & E). destruct (D' u Lu) as (ds' & xs' & A' & E').
  assert (Ed : forall i, (i < length c)%nat -> ds i = ds' i).
  { intros i I. eapply (velocity_unique (fun s => place c (moving q u s) i)); [apply place_rigid; exact H | apply A; exact I | apply A'; exact I]. }
  assert (Ex : forall i, (i < length c)%nat -> xs i = xs' i).
  { intros i I. destruct (A i I) as [_ R]. destruct (A' i I) as [_ R']. rewrite (Ed i I) in R. eapply resists_unique; [|exact R | exact R']. intro s. apply place_rigid. exact H. }
  rewrite (Ed (length c - 1)%nat) in E by lia.
  assert (S : map xs (seq 0 (length c)) = map xs' (seq 0 (length c))). { apply map_ext_in. intros i I. apply in_seq in I. apply Ex. lia. }
  rewrite S in E. lra.
Qed.
