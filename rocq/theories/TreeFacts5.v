(** Proofs about the solvers on KDL: velocities and gravity. *)
From Coq Require Import Reals Lra Lia List Bool Arith ZArith String.
From Coquelicot Require Import Coquelicot.
From Verif Require Import AsibotSpec Kdl KdlFacts KdlRot KdlRotFacts KinRep KdlSolver Ft Config ConfigSpec ConfigFacts Tree TreeSpec TreeFacts TreeFacts2 TreeFacts3 TreeFacts4.
Import ListNotations.
Open Scope R_scope.
Local Notation S := Datatypes.S.
Local Notation length := List.length.
Local Notation concat := List.concat.
Local Notation Forall := List.Forall.

(** ** Velocities *)
Lemma deg_move : forall q v t, degToRad (q + t * radToDeg v) = degToRad q + t * v.
Proof. intros. unfold degToRad, radToDeg. pose proof PI_RGT_0. field. lra. Qed.

Lemma moving_rad : forall q v t, map degToRad (moving q (map radToDeg v) t) = moving (map degToRad (firstn (length v) q)) v t.
Proof.
  unfold moving. induction q as [|a q IH]; intros v t; [now destruct v|]. destruct v as [|b v]; [reflexivity|].
  cbn [map combine firstn length fst snd]. f_equal; [apply deg_move|apply IH].
Qed.
Lemma moving_len : forall q v t, length (moving q v t) = Nat.min (length q) (length v).
Proof. intros. unfold moving. now rewrite map_length, combine_length. Qed.
Lemma moving_first : forall q v t n, length v = n -> moving q v t = moving (firstn n q) v t.
Proof.
  unfold moving. induction q as [|a q IH]; intros v t n L; [now destruct n|]. destruct v as [|b v]; destruct n as [|n]; try discriminate; [reflexivity|].
  cbn. f_equal. apply IH. now injection L.
Qed.
Lemma moving_start : forall q v, length v = length q -> moving q v 0 = q.
Proof. unfold moving. induction q as [|a q IH]; intros [|b v] L; try discriminate; [reflexivity|]. cbn in *. f_equal; [ring|]. apply IH. now injection L. Qed.

Lemma chain_velocity : forall k s q, (nr_of_joints (sv_chain s) <= length q)%nat -> faithful_chain k s q ->
  forall x qd fr, (fr = BASE_FRAME \/ fr = TCP_FRAME) -> diffInvKin k s q x fr = TTrue qd ->
  exists p, (forall t, chain_fwd_kin (sv_chain s) (map degToRad (moving q qd t)) = Some (p t) /\ fwdKin s (moving q qd t) = Some (frameToVector (p t))) /\
    velocity_of p 0 (match fr with TCP_FRAME => Tw (mv (fM (p 0)) (t_vel (vectorToTwist x))) (mv (fM (p 0)) (t_rot (vectorToTwist x))) | _ => vectorToTwist x end).
Proof.
  intros k s q L FC x qd fr Hfr E. set (n := nr_of_joints (sv_chain s)) in *.
  assert (J : joints_in (sv_chain s) q = Some (map degToRad (firstn n q))).
  { unfold joints_in. fold n. now rewrite (proj2 (Nat.leb_le _ _) L). }
  assert (Lr : length (map degToRad (firstn n q)) = n) by (rewrite map_length, firstn_length; lia).
  unfold diffInvKin in E. rewrite J in E.
  destruct (joints_fk _ _ _ J) as [f Ef]. rewrite Ef in E.
  set (v := match fr with TCP_FRAME => trot (fM f) (vectorToTwist x) | _ => vectorToTwist x end).
  assert (X : exists v', c_vel k (sv_chain s) (map degToRad (firstn n q)) v = Some v' /\ qd = map radToDeg v').
  { destruct Hfr as [-> | ->]; cbn in E; unfold v; destruct (c_vel k (sv_chain s) (map degToRad (firstn n q)) _) as [v'|]; try discriminate;
      injection E as <-; exists v'; auto. }
  destruct X as (v' & Ev & ->). destruct (FC _ _ Ev) as [Lv Vp].
  assert (P : forall t, exists g, chain_fwd_kin (sv_chain s) (moving (map degToRad (firstn n q)) v' t) = Some g).
  { intro t. unfold chain_fwd_kin. rewrite (chain_fk_fold _ fid [] _); [eauto|]. rewrite moving_len, Lr, Lv. fold n. lia. }
  set (p := fun t => match chain_fwd_kin (sv_chain s) (moving (map degToRad (firstn n q)) v' t) with Some g => g | None => fid end).
  assert (Ep : forall t, chain_fwd_kin (sv_chain s) (moving (map degToRad (firstn n q)) v' t) = Some (p t)).
  { intro t. unfold p. now destruct (P t) as [g ->]. }
  exists p. split.
  - intro t. rewrite moving_rad, Lv. fold n. split; [apply Ep|].
    unfold fwdKin, joints_in. fold n. rewrite moving_len, map_length, Lv.
    rewrite (proj2 (Nat.leb_le _ _)) by lia. rewrite firstn_all2 by (rewrite moving_len, map_length; lia). rewrite moving_rad, Lv. fold n.
    now rewrite Ep.
  - assert (P0 : p 0 = f). { unfold p. rewrite moving_start by (rewrite Lr; exact Lv). now rewrite Ef. }
    rewrite P0. pose proof (Vp p Ep) as V. unfold v in V. destruct Hfr as [-> | ->]; exact V.
Qed.

Lemma tree_velocity : forall cs mins maxs vels ik s lim, tree_open cs mins maxs vels ik = Some (s, lim) ->
  Forall described_chain cs -> no_self_merge cs ->
  forall k q, (getNumJoints s <= length q)%nat -> faithful_tree k cs (map degToRad (firstn (getNumJoints s) q)) ->
  forall x qd fr, (fr = BASE_FRAME \/ fr = TCP_FRAME) -> t_diffInvKin k s q x fr = TTrue qd ->
  forall i c, nth_error (tcp_chains cs) i = Some c -> tc_merge c = None ->
  exists p, (forall t, frame_at cs (fun j => degToRad (nth j (moving q qd t) 0)) (tc_name c) (p t)) /\
    let v := vectorToTwist (six x (unmerged (firstn i (tcp_chains cs)))) in
    velocity_of p 0 (match fr with TCP_FRAME => Tw (mv (fM (p 0)) (t_vel v)) (mv (fM (p 0)) (t_rot v)) | _ => v end).
Proof.
  intros cs mins maxs vels ik s lim Ho D NS k q L FT x qd fr Hfr E i c Ei Mc.
  assert (Lx : (6 * unmerged (tcp_chains cs) <= length x)%nat).
  { destruct (Nat.le_gt_cases (6 * unmerged (tcp_chains cs)) (length x)) as [H|H]; [exact H|exfalso].
    destruct (short_targets _ _ _ _ _ _ _ Ho D NS x q fr (or_introl H) k) as [_ H']. congruence. }
  pose proof (open_good _ _ _ _ _ _ _ Ho D) as G.
  assert (N : getNumJoints s = first_joint cs (length cs)) by apply (g_joints _ _ _ (G [])).
  set (n := getNumJoints s) in *. set (qr := map degToRad (firstn n q)) in *.
  assert (Lr : length qr = n) by (unfold qr; rewrite map_length, firstn_length; lia).
  assert (I : In c cs). { apply nth_error_In in Ei. apply filter_In in Ei. apply Ei. }
  (* the pose of the TCP at each time *)
  assert (Pose : forall v', length v' = n -> exists p, (forall t, frame_at cs (fun j => nth j (moving qr v' t) 0) (tc_name c) (p t)) /\
    (forall t, frame_at cs (fun j => degToRad (nth j (moving q (map radToDeg v') t) 0)) (tc_name c) (p t))).
  { intros v' Lv. set (p := fun t => match tree_fk (ts_tree s) (moving qr v' t) (tc_name c) with Some g => g | None => fid end).
    assert (A : forall t, frame_at cs (fun j => nth j (moving qr v' t) 0) (tc_name c) (p t)).
    { intro t. destruct (g_poses _ _ _ (G (moving qr v' t)) (tc_name c) (g_there _ _ _ (G []) c I)) as (f & Af & Ef).
      unfold p. now rewrite Ef. }
    exists p. split; [exact A|]. intro t. eapply frame_at_ext; [|apply A]. intros j Lj. cbn beta.
    unfold qr. rewrite <- Lv, <- moving_rad.
    transitivity (nth j (map degToRad (moving q (map radToDeg v') t)) (degToRad 0)); [|apply map_nth].
    f_equal. unfold degToRad; ring. }
  destruct Hfr as [-> | ->].
  - destruct (merged_targets _ _ _ _ _ _ _ Ho D NS x q Lx L) as (_ & (m & [_ A] & Em) & _). fold n in Em. fold qr in Em.
    rewrite Em in E. destruct (k_vel k qr m) as [v'|] eqn:Ev; [|discriminate]. injection E as <-.
    destruct (FT _ _ Ev) as [Lv Vp]. rewrite Lr in Lv. destruct (Pose v' Lv) as (p & P1 & P2). exists p. split; [exact P2|].
    cbv zeta. specialize (A i c Ei). rewrite Mc in A. exact (Vp _ _ p A P1).
  - destruct (tcp_targets _ _ _ _ _ _ _ Ho D NS x q Lx L) as (_ & (m & m' & [_ A] & [_ Rb] & Em) & _). fold n in Em. fold qr in Em.
    rewrite Em in E. destruct (k_vel k qr m') as [v'|] eqn:Ev; [|discriminate]. injection E as <-.
    destruct (FT _ _ Ev) as [Lv Vp]. rewrite Lr in Lv. destruct (Pose v' Lv) as (p & P1 & P2). exists p. split; [exact P2|].
    cbv zeta. specialize (A i c Ei). rewrite Mc in A.
    assert (P0 : frame_at cs (fun j => degToRad (nth j q 0)) (tc_name c) (p 0)).
    { eapply frame_at_ext; [|apply P1]. intros j Lj. cbn beta. rewrite moving_start by (rewrite Lr; exact Lv). unfold qr. apply rad_nth; lia. }
    exact (Vp _ _ p (Rb _ _ _ A P0) P1).
Qed.

(** ** Gravity *)
Lemma zeros_wrench : forall l, (forall x, In x l -> x = 0) -> vectorToWrench l = wrench_zero.
Proof.
  intros l H. destruct l as [|a [|b [|c [|d [|e [|f [|]]]]]]]; try reflexivity. cbn.
  rewrite (H a), (H b), (H c), (H d), (H e), (H f) by (cbn; tauto). reflexivity.
Qed.
Lemma wrot_zero : forall m, wrot m wrench_zero = wrench_zero.
Proof. intro m. unfold wrot, wrench_zero. cbn. f_equal; unfold mv, vzero; cbn; f_equal; ring. Qed.
Lemma repeat_end : forall A (a : A) n, repeat a n ++ [a] = repeat a (S n).
Proof. induction n; [reflexivity|]. cbn in *. now rewrite IHn. Qed.
Lemma zero_joints : forall n, map degToRad (firstn n (repeat 0 n)) = repeat 0 n.
Proof. induction n; [reflexivity|]. cbn. f_equal; [unfold degToRad; ring|exact IHn]. Qed.

Lemma chain_gravity : forall k s q fr, (fr = BASE_FRAME \/ fr = TCP_FRAME) -> sv_chain s <> [] -> (nr_of_joints (sv_chain s) <= length q)%nat ->
  let z := repeat 0 (nr_of_joints (sv_chain s)) in gravityDyn k s q = invDyn k s q z z (repeat 0 6) fr.
Proof.
  intros k s q fr Hfr NE L z. unfold gravityDyn, invDyn.
  assert (J : joints_in (sv_chain s) q = Some (map degToRad (firstn (nr_of_joints (sv_chain s)) q))).
  { unfold joints_in. now rewrite (proj2 (Nat.leb_le _ _) L). }
  assert (Z : joints_in (sv_chain s) z = Some z).
  { unfold joints_in, z. rewrite repeat_length, Nat.leb_refl. f_equal. apply zero_joints. }
  rewrite Z. destruct (joints_fk _ _ _ J) as [f Ef]. rewrite J.
  assert (W : vectorToWrench (repeat 0 6) = wrench_zero). { apply zeros_wrench. intros x I. symmetry. revert I. cbn. tauto. }
  rewrite W. rewrite Ef. cbn [option_map]. rewrite wrot_zero.
  destruct (length (sv_chain s)) as [|n] eqn:En; [destruct (sv_chain s); [now elim NE|discriminate]|].
  destruct Hfr as [-> | ->]; cbv beta iota zeta; now rewrite repeat_end.
Qed.

Lemma emplace_keys : forall A (m : list (string * A)) k a j, In j (map fst (emplace m k a)) <-> In j (map fst m) \/ j = k.
Proof.
  intros. unfold emplace. destruct (lookup m k) eqn:E.
  - split; [auto|]. intros [H| ->]; auto. apply lookup_In in E. apply in_map_iff. now exists (k, a0).
  - rewrite map_app, in_app_iff. cbn. intuition.
Qed.
Lemma emplace_known : forall A (m : list (string * A)) k a, In k (map fst m) -> emplace m k a = m.
Proof. intros A m k a I. unfold emplace. now destruct (lookup_some _ _ _ I) as [b ->]. Qed.
Definition all_are {A} (z : A) (m : list (string * A)) : Prop := forall k a, In (k, a) m -> a = z.
Lemma emplace_all : forall A (z : A) m k, all_are z m -> all_are z (emplace m k z).
Proof.
  intros A z m k H j a I. unfold emplace in I. destruct (lookup m k); [now apply (H j)|]. apply in_app_iff in I. destruct I as [I|[I|[]]]; [now apply (H j)|].
  injection I as <- <-. reflexivity.
Qed.

Lemma zero_targets : forall A (conv : list R -> A) z merged es x i m, (forall l, (forall r, In r l -> r = 0) -> conv l = z) ->
  (forall r, In r x -> r = 0) -> all_are z m -> (6 * (i + length es) <= length x)%nat ->
  (forall j e w, nth_error es j = Some e -> lookup merged e = Some w -> In w (map fst m) \/ In w (firstn (S j) es)) ->
  targets conv z merged es x i m = Some (fold_left (fun m e => emplace m e z) es m).
Proof.
  induction es as [|e es IH]; intros x i m C X Z L K; [reflexivity|]. cbn [targets fold_left].
  assert (K' : forall j e0 w, nth_error es j = Some e0 -> lookup merged e0 = Some w -> In w (map fst (emplace m e z)) \/ In w (firstn (S j) es)).
  { intros j e0 w Ej El. destruct (K (S j) e0 w Ej El) as [H|H].
    - left. apply emplace_keys. now left.
    - destruct H as [<-|H]; [left; apply emplace_keys; now right|now right]. }
  destruct (lookup merged e) as [w|] eqn:El.
  - assert (W : emplace (emplace m w z) e (match lookup (emplace m w z) w with Some a => a | None => z end) = emplace m e z).
    { assert (V : (match lookup (emplace m w z) w with Some a => a | None => z end) = z).
      { destruct (lookup (emplace m w z) w) as [a|] eqn:Ea; [|reflexivity]. apply lookup_In in Ea. exact (emplace_all _ z m w Z _ _ Ea). }
      rewrite V. destruct (K 0%nat e w eq_refl El) as [H|[<-|[]]].
      - now rewrite (emplace_known _ _ w z H).
      - apply emplace_known. apply emplace_keys. now right. }
    rewrite W. apply IH; auto; [now apply emplace_all|cbn in L; lia].
  - unfold block. rewrite (proj2 (Nat.leb_le _ _)) by (cbn in L; lia).
    rewrite C. { apply IH; auto; [now apply emplace_all|cbn in L; lia]. }
    intros r I. apply X. rewrite <- (firstn_skipn (i * 6) x). apply in_app_iff. right.
    rewrite <- (firstn_skipn 6 (skipn (i * 6) x)). apply in_app_iff. now left.
Qed.

Lemma rebase_zero : forall A (act : frame -> A -> A) z t q es m, (forall h, act h z = z) -> (forall e, In e es -> tree_fwd_kin t q e <> None) ->
  all_are z m -> rebase t q act es m = Some m.
Proof.
  induction es as [|e es IH]; intros m Z F H; [reflexivity|]. cbn. destruct (tree_fwd_kin t q e) as [h|] eqn:E; [|now elim (F e (or_introl eq_refl))].
  assert (U : update m e (act h) = m).
  { unfold update. rewrite <- (map_id m) at 2. apply map_ext_in. intros [k a] I. cbn. destruct (String.eqb k e); [|reflexivity].
    now rewrite (H _ _ I), Z. }
  rewrite U. apply IH; auto. intros; apply F; now right.
Qed.

Lemma tree_gravity : forall cs mins maxs vels ik s lim, tree_open cs mins maxs vels ik = Some (s, lim) ->
  Forall described_chain cs ->
  forall k q fr, (fr = BASE_FRAME \/ fr = TCP_FRAME) -> (getNumJoints s <= length q)%nat ->
  let z := repeat 0 (getNumJoints s) in t_gravity k s q = t_invDyn k s q z z (repeat 0 (6 * getNumTcps s)) fr.
Proof.
  intros cs mins maxs vels ik s lim Ho D k q fr Hfr L z.
  pose proof (open_good _ _ _ _ _ _ _ Ho D) as G.
  unfold t_gravity, t_invDyn.
  assert (Zj : t_joints s z = Some z).
  { unfold t_joints, z. rewrite repeat_length, Nat.leb_refl. f_equal. apply zero_joints. }
  rewrite Zj. unfold t_joints. rewrite (proj2 (Nat.leb_le _ _) L).
  set (qr := map degToRad (firstn (getNumJoints s) q)).
  assert (Lq : length qr = tree_joints (ts_tree s)). { unfold qr. rewrite map_length, firstn_length. fold (getNumJoints s). lia. }
  rewrite zero_targets.
  - set (m := fold_left (fun m e => emplace m e wrench_zero) (ts_endpoints s) []).
    assert (A : all_are wrench_zero m).
    { unfold m. assert (H : forall es m0, all_are wrench_zero m0 -> all_are wrench_zero (fold_left (fun m e => emplace m e wrench_zero) es m0)).
      { induction es; intros m0 H0; [exact H0|]. cbn. apply IHes. now apply emplace_all. }
      apply H. intros ? ? []. }
    destruct Hfr as [-> | ->]; [|reflexivity].
    rewrite (rebase_zero _ _ wrench_zero); [reflexivity|intro; apply wrot_zero| |exact A].
    intros e I. rewrite (g_endpoints _ _ _ (G [])) in I. apply in_map_iff in I. destruct I as (c & <- & I). apply filter_In in I.
    unfold tree_fwd_kin. rewrite Lq, Nat.eqb_refl.
    destruct (g_poses _ _ _ (G qr) (tc_name c) (g_there _ _ _ (G []) c (proj1 I))) as (f & _ & ->). discriminate.
  - apply zeros_wrench.
  - intros r I. now apply repeat_spec in I.
  - intros ? ? [].
  - rewrite repeat_length. unfold getNumTcps. lia.
  - intros j e w Ej El. right. rewrite (g_endpoints _ _ _ (G [])) in Ej |- *. rewrite nth_error_map in Ej.
    destruct (nth_error (tcp_chains cs) j) as [c|] eqn:Ec; [|discriminate]. injection Ej as <-.
    assert (ND : NoDup (map tc_name (tcp_chains cs))) by (apply filter_NoDup, (g_names _ _ _ (G []))).
    rewrite (g_merged _ _ _ (G [])) in El.
    change (rev (concat (map (fun c => match tc_merge c with Some m => [(tc_name c, m)] | None => [] end) (tcp_chains cs)))) with (mtable (tcp_chains cs)) in El.
    rewrite mtable_lookup in El; [|exact ND|eapply nth_error_In; eauto].
    pose proof (g_known _ _ _ (G []) j c w Ec El) as K. now rewrite firstn_map.
Qed.

(** ** A mast with one joint about the vertical axis *)
Definition spin (w : R) : twist := Tw vzero (V 0 0 w).
Definition spinning (x : twist) : option (list R) :=
  if Reqb (vx (t_vel x)) 0 && Reqb (vy (t_vel x)) 0 && Reqb (vz (t_vel x)) 0 && Reqb (vx (t_rot x)) 0 && Reqb (vy (t_rot x)) 0
  then Some [vz (t_rot x)] else None.
Lemma spinning_spec : forall x v, spinning x = Some v -> exists w, x = spin w /\ v = [w].
Proof.
  intros [[a b c] [d e f]] v. unfold spinning. cbn. intro H.
  destruct (Reqb a 0) eqn:A; [|discriminate]. destruct (Reqb b 0) eqn:B; [|discriminate]. destruct (Reqb c 0) eqn:C; [|discriminate].
  destruct (Reqb d 0) eqn:D; [|discriminate]. destruct (Reqb e 0) eqn:E; [|discriminate].
  apply Reqb_true in A, B, C, D, E. subst. injection H as <-. exists f. auto.
Qed.
Lemma spin_velocity : forall q w h, velocity_of (fun t => F (RotZ (q + t * w)) (V 0 0 h)) 0 (spin w).
Proof.
  intros q w h. unfold velocity_of, spin. cbn. repeat split; apply is_derive_Reals; auto_derive; auto; rewrite ?Rmult_0_l, ?Rplus_0_r; ring.
Qed.

Definition mast_chain : chain := [mk_segment (axis_joint JRotZ 1) (F mid (V 0 0 1))].
Definition mast_solvers : chain_solvers := Cks (fun _ _ x => spinning x) (fun _ _ _ _ _ => None).
Lemma rotz_pose : forall x, joint_pose (axis_joint JRotZ 1) x = F (RotZ x) vzero.
Proof. intro x. unfold joint_pose, axis_joint. cbn -[RotZ]. now replace (1 * x + 0) with x by ring. Qed.
Lemma RotZ_0 : RotZ 0 = mid.
Proof. unfold RotZ, mid. rewrite cos_0, sin_0. apply mat_eq; cbn; ring. Qed.
Lemma rotz_lift : forall x h, fmul (F (RotZ x) vzero) (F mid (V 0 0 h)) = F (RotZ x) (V 0 0 h).
Proof. intros. unfold fmul. cbn [fM fp]. f_equal; [apply mat_eq; cbn; ring|apply vec_eq; cbn; ring]. Qed.
Lemma mast_fk : forall x, chain_fwd_kin mast_chain [x] = Some (F (RotZ x) (V 0 0 1)).
Proof.
  intro x. unfold chain_fwd_kin, mast_chain. cbn [chain_fk mk_segment s_joint is_fixed j_type axis_joint]. rewrite fmul_id_l.
  unfold segment_pose, mk_segment. cbn [s_joint s_tip]. rewrite !rotz_pose, RotZ_0.
  change (F mid vzero) with fid. now rewrite finv_id, fmul_id_l, rotz_lift.
Qed.
Lemma mast_faithful : forall ik q, faithful_chain mast_solvers (Sv mast_chain mast_chain ik) [q].
Proof.
  unfold faithful_chain. intros ik q x v E. apply spinning_spec in E. destruct E as (w & -> & ->). split; [reflexivity|].
  intros p P. assert (X : p = fun t => F (RotZ (degToRad q + t * w)) (V 0 0 1)).
  { apply FunctionalExtensionality.functional_extensionality. intro t. specialize (P t). cbn [sv_chain] in P.
    change (moving (map degToRad (firstn (nr_of_joints mast_chain) [q])) [w] t) with [degToRad q + t * w] in P.
    rewrite mast_fk in P. now injection P. }
  rewrite X. apply spin_velocity.
Qed.
Lemma mast_moves : forall ik q, diffInvKin mast_solvers (Sv mast_chain mast_chain ik) [q] [0; 0; 0; 0; 0; 1] BASE_FRAME = TTrue [180 / PI].
Proof.
  intros. unfold diffInvKin, joints_in. cbn. unfold spinning. cbn. rewrite !(proj2 (Reqb_true 0 0) eq_refl). cbn. do 2 f_equal.
  unfold radToDeg. pose proof PI_RGT_0. field. lra.
Qed.

Definition pole : list tree_chain := [Tc "pole" None (Ch (Some 1%Z) None (turn_link "RotZ") None) true None].
Definition pole_solvers : tree_solvers :=
  Tks (fun _ _ => None) (fun _ m => match m with [(n, x)] => if String.eqb n "pole" then spinning x else None | _ => None end) (fun _ _ _ _ => None).
Lemma pole_chains : exists s, open_chains (Ts [] [] []) pole = Some s /\ getNumJoints s = 1%nat.
Proof. eexists. split; reflexivity. Qed.
Lemma pole_limits : limits_ok [-10] [10] = true.
Proof. cbn. pose proof PI_RGT_0. unfold degToRad. rewrite !(proj2 (Rltb_false _ _)) by nra. reflexivity. Qed.
Lemma pole_open : exists s lim, tree_open pole (Some [-10]) (Some [10]) (Some [1]) None = Some (s, lim) /\ getNumJoints s = 1%nat.
Proof.
  destruct pole_chains as (s & E & N). exists s. eexists. split; [|exact N].
  unfold tree_open. rewrite E. unfold getNumJoints in N. rewrite N. unfold retrieveTreeLimits, retrieveJointLimits.
  change (negb (Nat.eqb (length [10]) 1 && Nat.eqb (length [-10]) 1)) with false. cbv iota. rewrite pole_limits. reflexivity.
Qed.
Lemma pole_described : Forall described_chain pole.
Proof.
  constructor; [|constructor]. split; [|split].
  - constructor; [|constructor]. right. exists 0, 0, 1, "RotZ"%string. split; [reflexivity|]. cbn. tauto.
  - exists fid. constructor.
  - exists fid. constructor.
Qed.
Lemma pole_pose : forall x, frame_at pole x "pole" (F (RotZ (x 0%nat)) (V 0 0 1)).
Proof.
  intro x. replace (F (RotZ (x 0%nat)) (V 0 0 1)) with (fmul fid (fmul fid (fmul (fmul (fmul (turn ez (x 0%nat)) (F mid (V 0 0 1))) fid) fid))).
  - apply (at_tip pole x 0 (Tc "pole" None (Ch (Some 1%Z) None (turn_link "RotZ") None) true None)); [reflexivity|constructor|constructor| |constructor].
    constructor; [|constructor]. constructor. cbn. tauto.
  - rewrite !fmul_id_l, !fmul_id_r. unfold turn, ez. rewrite <- RotZ_Rot2. apply rotz_lift.
Qed.
Lemma pole_faithful : forall q, faithful_tree pole_solvers pole [q].
Proof.
  intros q m v E. cbn in E. destruct m as [|[n x] [|]]; try discriminate.
  destruct (String.eqb n "pole") eqn:En; [|discriminate]. apply String.eqb_eq in En. subst n.
  apply spinning_spec in E. destruct E as (w & -> & ->). split; [reflexivity|].
  intros n x p [I|[]] P. injection I as <- <-.
  assert (X : p = fun t => F (RotZ (q + t * w)) (V 0 0 1)).
  { apply FunctionalExtensionality.functional_extensionality. intro t. destruct pole_open as (s & lim & O & _).
    refine (pose_unique _ _ _ _ _ _ _ O pole_described _ _ _ _ (P t) (pole_pose _)). }
  rewrite X. apply spin_velocity.
Qed.
Lemma pole_no_self : no_self_merge pole.
Proof. intros c [<-|[]]; cbn; discriminate. Qed.
Lemma pole_moves : forall q, exists s lim, tree_open pole (Some [-10]) (Some [10]) (Some [1]) None = Some (s, lim) /\ getNumJoints s = 1%nat /\
  t_diffInvKin pole_solvers s [q] [0; 0; 0; 0; 0; 1] BASE_FRAME = TTrue [180 / PI].
Proof.
  intro q. destruct pole_open as (s & lim & O & N). exists s, lim. split; [exact O|]. split; [exact N|].
  destruct (merged_targets _ _ _ _ _ _ _ O pole_described pole_no_self [0; 0; 0; 0; 0; 1] [q]) as (_ & (m & [A0 A] & E) & _); [cbn; lia|rewrite N; cbn; lia|].
  specialize (A 0%nat _ eq_refl). cbn in A. rewrite E.
  destruct m as [|[n x] [|]]; try discriminate. injection A0 as ->. destruct A as [A|[]]. injection A as ->.
  cbn. unfold spinning. cbn. rewrite !(proj2 (Reqb_true 0 0) eq_refl). cbn. do 2 f_equal.
  unfold radToDeg. pose proof PI_RGT_0. field. lra.
Qed.
