(** The methods of the tree solver, with the dynamics of the robot of the file. *)
From Coq Require Import Reals Lra Lia List Bool Arith ZArith String.
From Verif Require Import Kdl KdlFacts KdlRot KinRep KdlSolver Ft Config ConfigSpec ConfigFacts Tree TreeFacts TreeFacts2 TreeFacts3 TreeSpec Dyn AsibotSpec DynSpec DynFacts DynFacts2 DynFacts3 DynFacts4 DynFacts5 DynFacts6 DynFacts7 TreeDyn TreeDynSpec TreeDynFacts TreeDynFacts2.
From Verif Require DynFacts8.
Import ListNotations.
Open Scope R_scope.
Local Notation length := List.length.
Local Notation S := Datatypes.S.

Lemma power_into f d w : tdot d (wrot (mT (fM f)) w) = wrench_power w (trot (fM f) d).
Proof.
  unfold wrench_power, tdot, wrot, trot. cbn [w_force w_torque t_vel t_rot]. rewrite (dot_mT (fM f) (w_force w)), (dot_mT (fM f) (w_torque w)).
  rewrite (dot_comm (t_vel d)), (dot_comm (t_rot d)). reflexivity.
Qed.
Lemma power_out f d w : rigid f -> tdot d w = wrench_power (wrot (fM f) w) (trot (fM f) d).
Proof.
  intro R. unfold wrench_power, tdot, wrot, trot. cbn [w_force w_torque t_vel t_rot]. rewrite !dot_mT, !mv_mT_l by exact R.
  rewrite (dot_comm (t_vel d)), (dot_comm (t_rot d)). reflexivity.
Qed.
Lemma keyed_map A B (F : string -> A -> B) : forall m m', map fst m' = map fst m -> NoDup (map fst m) -> (forall n v, In (n, v) m -> In (n, F n v) m') ->
  m' = map (fun p => (fst p, F (fst p) (snd p))) m.
Proof.
  induction m as [|[k a] m IH]; intros m' E N H; destruct m' as [|[k' a'] m']; try discriminate; [reflexivity|]. cbn [map fst snd] in *. injection E as -> E.
  inversion N as [|? ? N1 N2]; subst. rewrite (IH m' E N2).
  - f_equal. f_equal. destruct (H k a (or_introl eq_refl)) as [X|X]; [congruence|]. exfalso. apply N1. rewrite <- E. apply (in_map fst) in X. exact X.
  - intros n v I. destruct (H n v (or_intror I)) as [X|X]; [|exact X]. exfalso. apply N1. injection X as <- _. apply (in_map fst) in I. exact I.
Qed.
Lemma given_body l b : body_given l b -> inertia_of (body_of l) = inertia_of b.
Proof.
  intro H. destruct H as [g m E|g m k x y z a b c E1 E2 E3 E4]; unfold body_of; cbn [fst snd].
  - rewrite E. destruct (lg_dh g); reflexivity.
  - destruct (lg_dh g); [|now elim E1]. rewrite E2, E3, E4. reflexivity.
Qed.
(** the wrenches that the code hands over when only gravity is asked for *)
Lemma no_wrenches : forall es m, NoDup (map fst m) -> (forall n w, In (n, w) m -> w = wrench_zero) ->
  let m' := fold_left (fun m e => emplace m e wrench_zero) es m in NoDup (map fst m') /\ (forall n w, In (n, w) m' -> w = wrench_zero) /\ forall n, In n (map fst m') -> In n (map fst m) \/ In n es.
Proof.
  induction es as [|e es IH]; intros m N Z; cbn [fold_left]; [auto|]. assert (X : NoDup (map fst (emplace m e wrench_zero)) /\ (forall n w, In (n, w) (emplace m e wrench_zero) -> w = wrench_zero) /\ forall n, In n (map fst (emplace m e wrench_zero)) -> In n (map fst m) \/ n = e).
  { unfold emplace. destruct (lookup m e) eqn:L; [auto|]. repeat split.
    - rewrite map_app. apply NoDup_app_intro; [exact N|repeat constructor; auto|]. intros x I [<-|[]]. apply in_map_iff in I. destruct I as ([k a] & K & I). cbn [fst] in K. subst k. rewrite (lookup_nodup _ m _ a N I) in L. discriminate.
    - intros n w I. apply in_app_iff in I. destruct I as [I|[I|[]]]; [eauto|congruence].
    - intros n I. rewrite map_app in I. apply in_app_iff in I. cbn in I. destruct I as [I|[I|[]]]; auto. }
  destruct X as (X1 & X2 & X3). destruct (IH _ X1 X2) as (A & B & C). split; [exact A|]. split; [exact B|]. intros n I. destruct (C n I) as [J|J]; [|right; now right].
  destruct (X3 n J) as [K| ->]; [now left|right; now left].
Qed.

Lemma F2_map A B (P : A -> B -> Prop) (f : A -> B) : forall l, (forall a, In a l -> P a (f a)) -> Forall2 P l (map f l).
Proof. induction l as [|a l IH]; intro H; constructor; [apply H; now left|apply IH; intros; apply H; now right]. Qed.
Lemma combine_map_self A B (f : A -> B) : forall l, combine l (map f l) = map (fun a => (a, f a)) l.
Proof. induction l as [|a l IH]; [reflexivity|]. cbn. f_equal. exact IH. Qed.

Section File.
Variables (cs : list tree_chain) (ms : string -> nat -> mass_group) (s : tsolver) (mins maxs vels : option (list R)) (ik : option string) (lim : list R * list R * list R).
Variables (k0 k : tree_solvers) (gv : option (option (list R))) (g : vec).
Hypothesis Ho : tree_open cs mins maxs vels ik = Some (s, lim).
Hypothesis D : Forall described_chain cs.
Hypothesis Fm : Forall firm cs.
Hypothesis Hk : tree_dyn_open k0 s cs ms gv = Some k.
Hypothesis Hg : gravity_at gv g.
Let t := ts_tree s.
Let n := getNumJoints s.

Lemma open_dyn : k_dyn k = tree_rne g (tree_inertias cs ms) t.
Proof. unfold tree_dyn_open in Hk. destruct Hg; cbn in Hk; injection Hk as <-; reflexivity. Qed.
Lemma weight_name l : In l (weights_of cs ms) -> In (fst l) (map nd_name t).
Proof. intro I. apply (names_tree _ _ _ _ _ _ _ Ho D Fm). apply (weights_names ms), in_map, I. Qed.

Theorem gravity_tree q : (n <= length q)%nat -> Forall weighed (map snd (weights_of cs ms)) ->
  exists ts, t_gravity k s q = TTrue ts /\ tree_holds g cs ms (map (fun a => a * PI / 180) (firstn n q)) ts.
Proof.
  intros L W. unfold t_gravity, t_joints. fold n. rewrite (proj2 (Nat.leb_le _ _) L), open_dyn. set (qr := map degToRad (firstn n q)).
  assert (Lr : length qr = n) by (unfold qr; rewrite map_length, firstn_length; lia).
  destruct (no_wrenches (ts_endpoints s) [] ltac:(constructor) ltac:(intros ? ? [])) as (N & Z & I). cbv zeta in *. set (fe := fold_left _ _ _) in *.
  destruct (tree_rne g (tree_inertias cs ms) t qr (repeat 0 n) (repeat 0 n) fe) as [ts|] eqn:E.
  2:{ exfalso. unfold tree_rne in E. rewrite repeat_length, Lr in E. change (tree_joints t) with n in E. rewrite Nat.eqb_refl in E. discriminate. }
  exists ts. split; [reflexivity|]. rewrite DynFacts8.deg_map. fold qr.
  destruct (open_sound _ _ _ _ _ _ _ Ho D Fm) as (So & _). fold t in So. destruct (rne_power _ _ _ _ _ _ _ _ So E) as (_ & _ & _ & Lt & _). change (tree_joints t) with n in Lt.
  split; [congruence|]. intros u Lu. 
  exists (fun x => sum (map (fun l => weight g (tpose t (moving qr u x) (fst l)) (snd (snd l))) (weights_of cs ms))). split.
  - intro x. exists (map (fun l => tpose t (moving qr u x) (fst l)) (weights_of cs ms)). split.
    + apply F2_map. intros l I'. apply (file_frame _ _ _ _ _ _ _ Ho D), weight_name, I'.
    + rewrite combine_map_self, map_map. reflexivity.
  - assert (P : power ts u = sum (map (fun l => tdot (ttrack t qr u (fst l)) (push (inertia_of (body_of (snd l))) (heavy g (fM (tpose t qr (fst l))) (taccel twist_zero t qr (repeat 0 n) (repeat 0 n) (fst l))) (ttrack t qr (repeat 0 n) (fst l)))) (weights_of cs ms))).
    { assert (X : incl (map fst fe) (map nd_name t)).
      { intros e J. destruct (I e J) as [[]|K]. rewrite (g_endpoints _ _ _ (open_good _ _ _ _ _ _ _ Ho D [])) in K. eapply endpoint_name; eauto. }
      pose proof (file_work cs ms s mins maxs vels ik lim Ho D Fm g qr (repeat 0 n) (repeat 0 n) fe ts u E N X (eq_trans Lu Lr)) as Y. fold t in Y. rewrite <- Y.
      rewrite (sum_ext _ (fun p => tdot (ttrack t qr u (fst p)) (snd p)) (fun _ => 0) fe); [|intros [e w] J; cbn [fst snd]; rewrite (Z e w J); apply tdot_none].
      clear. induction fe as [|p fe' IH]; [unfold sum; cbn; ring|]. unfold sum in *. cbn [map fold_right]. lra. }
    rewrite P. apply dl_sum with (f := fun l x => weight g (tpose t (moving qr u x) (fst l)) (snd (snd l))). intros l J.
    assert (Wl : weighed (snd l)) by (rewrite Forall_forall in W; apply W, in_map, J).
    set (b := body_of (snd l)). set (h := tpose t qr (fst l)).
    set (js := map (fun x (_ : R) => x) qr). set (vs := map (fun _ (_ : R) => 0) qr).
    assert (Ej : forall x, at_time js x = qr). { intro x. unfold at_time, js. rewrite map_map. apply map_id. }
    assert (Ev : at_time vs 0 = repeat 0 n). { unfold at_time, vs. rewrite map_map, <- Lr. clear. induction qr; cbn; f_equal; auto. }
    assert (D1 : Forall2 (fun j v => forall x, derivable_pt_lim j x (v x)) js vs). { unfold js, vs. clear. induction qr; constructor; auto. intro. apply dl_const. }
    assert (D2 : Forall2 (fun v r => derivable_pt_lim v 0 r) vs (repeat 0 n)). { unfold vs. rewrite <- Lr. clear. induction qr; constructor; auto. apply dl_const. }
    pose proof (moving_poses cs s mins maxs vels ik lim Ho D Fm js vs (repeat 0 n) 0 (fst l) D1 D2 g b (ttrack t qr u (fst l))) as R. fold t in R. rewrite Ej, Ev in R. fold h in R.
    set (xx := tdot _ _) in *. set (d := trot _ _) in *.
    assert (R' : resists g b (fun _ => h) 0 d xx).
    { destruct R as (v & a & m & V1 & A1 & N1 & X). exists v, a, m. rewrite Ej in X. fold h in X.
      split; [intro x; eapply velocity_ext; [|apply V1]; intro; cbv beta; rewrite Ej; reflexivity|].
      split; [eapply vr_ext; [|exact A1]; intro; cbv beta; rewrite Ej; reflexivity|].
      split; [eapply vr_ext; [|exact N1]; intro; cbv beta; rewrite Ej; reflexivity | exact X]. }
    rewrite (resists_rest g b h 0 d xx (tpose_rigid _ _ So _) R').
    apply dl_ext with (fun x => - (b_mass b * dot g (fapp (tpose t (moving qr u x) (fst l)) (b_cog b)))).
    { intro x. symmetry. apply (weight_body g _ (snd l)), Wl. }
    apply dl_opp.
    assert (Zm : moving qr u 0 = qr). { rewrite moving_line. apply line_start. congruence. }
    assert (Vi : velocity_of (fun r => tpose t (moving qr u r) (fst l)) 0 d) by (apply (virtual_poses cs s mins maxs vels ik lim Ho D Fm); congruence).
    apply velocity_split in Vi. destruct Vi as [V1 V2].
    assert (Y : vec_rate (fun x => fapp (tpose t (moving qr u x) (fst l)) (b_cog b)) 0 (vadd (t_vel d) (cross (t_rot d) (mv (fM h) (b_cog b))))).
    { unfold fapp. eapply vr_eq; [apply vr_add; [apply (vr_spin (fun x => fM (tpose t (moving qr u x) (fst l))) (fun _ => b_cog b) 0 _ vzero V2), vr_const | exact V1]|].
      cbv beta. rewrite Zm, mv_zero, vadd_zero_r. apply vadd_comm. }
    eapply dl_eq; [apply dl_mult; [apply dl_const | apply dl_dot; [apply vr_const | exact Y]]|]. cbv beta. rewrite dot_zero_l. ring.
Qed.

Theorem motion_tree q qd qdd ftip fr ts bs : no_self_merge cs -> Forall2 body_given (map snd (weights_of cs ms)) bs -> t_invDyn k s q qd qdd ftip fr = TTrue ts ->
  let rad l := map degToRad (firstn n l) in
  length ts = n /\ exists m w, assigned vectorToWrench cs ftip m /\
    match fr with TCP_FRAME => rebased (fun f => wrot (fM f)) cs (fun j => degToRad (nth j q 0)) m w | _ => w = m end /\
    forall js vs x, passes js vs x (rad q) (rad qd) (rad qdd) -> tree_drives g cs (combine (map fst (weights_of cs ms)) bs) js x w ts.
Proof.
  intros NS FB E rad. unfold t_invDyn in E. pose proof (targets_assigned _ vectorToWrench wrench_zero cs s (open_good _ _ _ _ _ _ _ Ho D []) NS ftip) as T.
  destruct (targets vectorToWrench wrench_zero (ts_merged s) (ts_endpoints s) ftip 0 []) as [m|]; [|discriminate]. destruct T as (A & _).
  unfold t_joints in E. fold n in E. destruct (Nat.leb n (length q)) eqn:L1; [|discriminate]. destruct (Nat.leb n (length qd)); [|discriminate]. destruct (Nat.leb n (length qdd)); [|discriminate].
  apply Nat.leb_le in L1. fold (rad q) (rad qd) (rad qdd) in E. rewrite open_dyn in E.
  destruct (open_sound _ _ _ _ _ _ _ Ho D Fm) as (So & _). fold t in So.
  pose proof (proj1 A) as Km. assert (Nm : NoDup (map fst m)) by (rewrite Km; eapply endpoints_nodup; eauto).
  assert (Im : forall e, In e (map fst m) -> In e (map nd_name t)) by (intros e J; rewrite Km in J; eapply endpoint_name; eauto).
  assert (Fr : forall e, In e (map fst m) -> frame_at cs (fun j => degToRad (nth j q 0)) e (tpose t (rad q) e)).
  { intros e J. eapply frame_at_ext; [|apply (file_frame _ _ _ _ _ _ _ Ho D), Im, J]. intros j Lj. cbv beta. unfold rad. apply rad_nth; [|exact L1].
    unfold n, getNumJoints. rewrite (g_joints _ _ _ (open_good _ _ _ _ _ _ _ Ho D [])). exact Lj. }
  assert (C : exists w fe, match fr with TCP_FRAME => rebased (fun f => wrot (fM f)) cs (fun j => degToRad (nth j q 0)) m w | _ => w = m end /\
     tree_rne g (tree_inertias cs ms) t (rad q) (rad qd) (rad qdd) fe = Some ts /\ map fst fe = map fst m /\ map fst w = map fst m /\
     forall u, sum (map (fun p => tdot (ttrack t (rad q) u (fst p)) (snd p)) fe) = sum (map (fun p => wrench_power (snd p) (trot (fM (tpose t (rad q) (fst p))) (ttrack t (rad q) u (fst p)))) w)).
  { destruct fr; [| |discriminate].
    - destruct (rebase_rebased _ (fun h => wrot (mT (fM h))) _ _ _ _ _ _ _ _ Ho D ftip q m L1 A) as (m' & E1 & K1 & R1). fold n in E1. fold (rad q) in E1. rewrite E1 in E.
      destruct (tree_rne _ _ _ _ _ _ _) as [ts'|] eqn:E2; [|discriminate]. injection E as <-. exists m, m'. repeat split; auto.
      assert (M : m' = map (fun p => (fst p, wrot (mT (fM (tpose t (rad q) (fst p)))) (snd p))) m).
      { apply (keyed_map _ _ (fun e v => wrot (mT (fM (tpose t (rad q) e))) v)); auto. intros e v J. apply (R1 e v _ J), Fr. apply (in_map fst) in J. exact J. }
      intro u. rewrite M, map_map. apply sum_ext. intros [e v] J. cbn [fst snd]. apply power_into.
    - destruct (tree_rne _ _ _ _ _ _ _) as [ts'|] eqn:E2; [|discriminate]. injection E as <-.
      destruct (rebase_rebased _ (fun h => wrot (fM h)) _ _ _ _ _ _ _ _ Ho D ftip q m L1 A) as (m' & _ & K1 & R1). exists m', m. repeat split; auto.
      assert (M : m' = map (fun p => (fst p, wrot (fM (tpose t (rad q) (fst p))) (snd p))) m).
      { apply (keyed_map _ _ (fun e v => wrot (fM (tpose t (rad q) e)) v)); auto. intros e v J. apply (R1 e v _ J), Fr. apply (in_map fst) in J. exact J. }
      intro u. rewrite M, map_map. apply sum_ext. intros [e v] J. cbn [fst snd]. apply power_out, tpose_rigid, So. }
  destruct C as (w & fe & B & Er & Kf & Kw & P). destruct (rne_power _ _ _ _ _ _ _ _ So Er) as (Lq & Lqd & Lqdd & Lt & _). split; [exact Lt|].
  exists m, w. split; [exact A|]. split; [exact B|]. intros js vs x (P1 & P2 & P3 & P4). unfold tree_drives. cbv zeta. rewrite P3. intros u Lu.
  assert (Lb : length (weights_of cs ms) = length bs) by (apply F2_len in FB; rewrite map_length in FB; exact FB).
  exists (fun e => trot (fM (tpose t (rad q) e)) (ttrack t (rad q) u e)).
  exists (fun p => tdot (ttrack t (rad q) u (fst p)) (push (inertia_of (snd p)) (heavy g (fM (tpose t (rad q) (fst p))) (taccel twist_zero t (rad q) (rad qd) (rad qdd) (fst p))) (ttrack t (rad q) (rad qd) (fst p)))).
  assert (Fst : map fst (combine (map fst (weights_of cs ms)) bs) = map fst (weights_of cs ms)).
  { revert Lb. clear. revert bs. induction (weights_of cs ms) as [|l ls IH]; intros [|b bs] Lb; try discriminate; [reflexivity|]. cbn. f_equal. apply IH. cbn in Lb. lia. }
  split; [|split].
  - intros e J. exists (fun r => tpose t (moving (rad q) u r) e). split.
    + intro r. apply (file_frame _ _ _ _ _ _ _ Ho D). destruct J as [J|J]; [|apply Im; congruence]. rewrite Fst in J. apply in_map_iff in J. destruct J as (l & <- & J). apply weight_name, J.
    + apply (virtual_poses cs s mins maxs vels ik lim Ho D Fm). exact Lu.
  - intros b J. exists (fun r => tpose t (at_time js r) (fst b)). split.
    + intro r. apply (file_frame _ _ _ _ _ _ _ Ho D). apply (in_map fst) in J. rewrite Fst in J. apply in_map_iff in J. destruct J as (l & <- & J). apply weight_name, J.
    + pose proof (moving_poses cs s mins maxs vels ik lim Ho D Fm js vs (rad qdd) x (fst b) P1 P2 g (snd b) (ttrack t (rad q) u (fst b))) as R. fold t in R.
      change (at_time js x) with (map (fun j => j x) js) in R. change (at_time vs x) with (map (fun j => j x) vs) in R. rewrite P3, P4 in R. exact R.
  - cbv beta. rewrite <- P.
    pose proof (file_work cs ms s mins maxs vels ik lim Ho D Fm g (rad q) (rad qd) (rad qdd) fe ts u Er) as Y. fold t in Y. rewrite Y.
    + revert FB. clear. revert bs. induction (weights_of cs ms) as [|l ls IH]; intros bs FB; inversion FB as [|? b ? bs' F1 F2]; subst; [reflexivity|].
      cbn [map combine fst snd]. unfold sum in *. cbn [fold_right]. rewrite (given_body _ _ F1). f_equal. apply IH, F2.
    + rewrite Kf. exact Nm.
    + rewrite Kf. exact Im.
    + congruence.
Qed.

(** there always are torques *)
Theorem answers_tree q qd qdd ftip fr : no_self_merge cs -> (n <= length q)%nat -> (n <= length qd)%nat -> (n <= length qdd)%nat -> (6 * unmerged (tcp_chains cs) <= length ftip)%nat ->
  fr = BASE_FRAME \/ fr = TCP_FRAME -> exists ts, t_invDyn k s q qd qdd ftip fr = TTrue ts.
Proof.
  intros NS L1 L2 L3 L4 H. unfold t_invDyn. pose proof (targets_assigned _ vectorToWrench wrench_zero cs s (open_good _ _ _ _ _ _ _ Ho D []) NS ftip) as T.
  destruct (targets vectorToWrench wrench_zero (ts_merged s) (ts_endpoints s) ftip 0 []) as [m|]; [|lia]. destruct T as (A & _).
  unfold t_joints. fold n. rewrite !(proj2 (Nat.leb_le _ _)) by assumption. rewrite open_dyn.
  assert (C : forall fe, exists ts, tree_rne g (tree_inertias cs ms) t (map degToRad (firstn n q)) (map degToRad (firstn n qd)) (map degToRad (firstn n qdd)) fe = Some ts).
  { intro fe. unfold tree_rne. rewrite !map_length, !firstn_length, !Nat.min_l by assumption. change (tree_joints t) with n. rewrite Nat.eqb_refl. eexists. reflexivity. }
  destruct H as [-> | ->].
  - destruct (rebase_rebased _ (fun h => wrot (mT (fM h))) _ _ _ _ _ _ _ _ Ho D ftip q m L1 A) as (m' & E1 & _). fold n in E1. rewrite E1. destruct (C m') as (ts & ->). eexists. reflexivity.
  - destruct (C m) as (ts & ->). eexists. reflexivity.
Qed.
(** no other torques do *)
Theorem drives_only bs js vs x q v w W ts ts' : passes js vs x q v w -> length q = n -> length ts = n -> length ts' = n ->
  tree_drives g cs bs js x W ts -> tree_drives g cs bs js x W ts' -> ts = ts'.
Proof.
  intros (P1 & P2 & P3 & P4) Lq L L' A A'. apply (power_basis ts ts' (length q)); try congruence. intros u Lu.
  destruct (open_sound _ _ _ _ _ _ _ Ho D Fm) as (So & _). fold t in So.
  unfold tree_drives in *. cbv zeta in *. rewrite P3 in *. destruct (A u Lu) as (d & y & A1 & A2 & A3). destruct (A' u Lu) as (d' & y' & B1 & B2 & B3).
  assert (Ed : forall e, In e (map fst bs) \/ In e (map fst W) -> d e = d' e).
  { intros e I. destruct (A1 e I) as (f & F1 & F2). destruct (B1 e I) as (f' & F1' & F2'). 
    assert (Ef : forall r, f r = tpose t (moving q u r) e) by (intro r; apply (file_pose cs s mins maxs vels ik lim Ho D), F1).
    assert (Ef' : forall r, f' r = tpose t (moving q u r) e) by (intro r; apply (file_pose cs s mins maxs vels ik lim Ho D), F1').
    apply (velocity_unique f 0); [rewrite Ef; apply tpose_rigid, So | exact F2|]. eapply velocity_ext; [|exact F2']. intro r. cbv beta. rewrite Ef. apply Ef'. }
  assert (Ey : forall b, In b bs -> y b = y' b).
  { intros b I. destruct (A2 b I) as (f & F1 & F2). destruct (B2 b I) as (f' & F1' & F2'). rewrite <- (Ed (fst b)) in F2' by (left; apply in_map, I).
    assert (Ef : forall r, f r = tpose t (at_time js r) (fst b)) by (intro r; apply (file_pose cs s mins maxs vels ik lim Ho D), F1).
    assert (Ef' : forall r, f' r = f r) by (intro r; rewrite Ef; apply (file_pose cs s mins maxs vels ik lim Ho D), F1').
    eapply (resists_unique g (snd b) f x); [intro r; rewrite Ef; apply tpose_rigid, So | exact F2|].
    destruct F2' as (v' & a & m & V1 & Z1 & N1 & X). exists v', a, m. split; [intro r; eapply velocity_ext; [|apply V1]; intro; cbv beta; apply Ef'|].
    split; [eapply vr_ext; [|exact Z1]; intro; cbv beta; rewrite Ef'; reflexivity|].
    split; [eapply vr_ext; [|exact N1]; intro; cbv beta; rewrite Ef'; reflexivity | rewrite Ef' in X; exact X]. }
  rewrite (sum_ext _ (fun z => wrench_power (snd z) (d (fst z))) (fun z => wrench_power (snd z) (d' (fst z))) W) in A3 by (intros z I; rewrite Ed; [reflexivity | right; apply in_map, I]).
  rewrite (sum_ext _ y y' bs Ey) in A3. lra.
Qed.
End File.
