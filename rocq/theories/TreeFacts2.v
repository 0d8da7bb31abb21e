(** Proofs about the tree solver: forward kinematics, targets. *)
From Coq Require Import Reals Lra Lia List Bool Arith ZArith String.
From Verif Require Import Kdl KdlFacts KdlRot KinRep KdlSolver Config ConfigSpec ConfigFacts Tree TreeSpec TreeFacts Ft.
Import ListNotations.
Open Scope R_scope.
Local Notation S := Datatypes.S.
Local Notation length := List.length.
Local Notation concat := List.concat.

(** ** Forward kinematics *)
Lemma tree_open_inv : forall cs mins maxs vels ik s lim, tree_open cs mins maxs vels ik = Some (s, lim) ->
  open_chains (Ts [] [] []) cs = Some s /\ retrieveTreeLimits (tree_joints (ts_tree s)) mins maxs vels = Some lim.
Proof.
  intros cs mins maxs vels ik s lim H. unfold tree_open in H. destruct cs as [|c cs]; [discriminate|].
  destruct (open_chains _ _) as [s'|]; [|discriminate].
  destruct (retrieveTreeLimits _ _ _ _) as [l|] eqn:L; [|discriminate].
  destruct (_ || _); [|discriminate]. injection H as <- <-. auto.
Qed.

Lemma chains_good : forall cs s q, open_chains (Ts [] [] []) cs = Some s -> Forall described_chain cs -> good cs q s.
Proof.
  induction cs as [|c cs IH] using rev_ind; intros s q H D.
  - cbn in H. injection H as <-. apply good_nil.
  - rewrite open_chains_app in H. destruct (open_chains (Ts [] [] []) cs) as [s0|] eqn:E; [|discriminate].
    apply Forall_app in D. destruct D as [D1 D2]. inversion D2; subst.
    cbn in H. destruct (open_chain s0 c) as [s1|] eqn:E1; [|discriminate]. injection H as <-.
    eapply good_step; eauto.
Qed.

Lemma open_good : forall cs mins maxs vels ik s lim, tree_open cs mins maxs vels ik = Some (s, lim) ->
  Forall described_chain cs -> forall q, good cs q s.
Proof. intros. destruct (tree_open_inv _ _ _ _ _ _ _ H). now apply chains_good. Qed.

Lemma first_joint_S : forall cs k c, nth_error cs k = Some c -> first_joint cs (S k) = (first_joint cs k + length (links_of c))%nat.
Proof.
  induction cs as [|d cs IH]; intros k c E; [destruct k; discriminate|]. destruct k as [|k].
  - cbn in E. injection E as <-. unfold first_joint. cbn. lia.
  - cbn in E. specialize (IH k c E). unfold first_joint, list_sum in *. cbn [firstn map fold_right] in IH |- *. change (firstn (S (S k)) (d :: cs)) with (d :: firstn (S k) cs). cbn [map fold_right]. lia.
Qed.
Lemma first_joint_le : forall cs k, (first_joint cs k <= first_joint cs (length cs))%nat.
Proof.
  intros cs k. unfold first_joint. rewrite firstn_all. revert k.
  unfold list_sum. induction cs as [|c cs IH]; intros [|k]; cbn [firstn map fold_right]; try lia. specialize (IH k). lia.
Qed.

Lemma frame_at_ext : forall cs x y n f, (forall j, (j < first_joint cs (length cs))%nat -> x j = y j) ->
  frame_at cs x n f -> frame_at cs y n f.
Proof.
  intros cs x y n f X H.
  assert (A : forall k c m, nth_error cs k = Some c -> (m <= length (links_of c))%nat -> coordinates cs k m x = coordinates cs k m y).
  { intros k c m E L. unfold coordinates. apply map_ext_in. intros j I. apply in_seq in I. apply X.
    pose proof (first_joint_S cs k c E). pose proof (first_joint_le cs (S k)). lia. }
  induction H as [|k c b h0 E _ IH M0|k c b h0 i g f E _ IH M0 Ei Lf|k c b h0 f hn E _ IH M0 Lf MN].
  - constructor.
  - eapply at_H0; eauto.
  - eapply at_link; eauto. rewrite <- (A k c); auto. apply nth_error_Some. congruence.
  - eapply at_tip; eauto. rewrite <- (A k c); auto.
Qed.

Lemma rad_nth : forall n q j, (j < n)%nat -> (n <= length q)%nat -> nth j (map degToRad (firstn n q)) 0 = degToRad (nth j q 0).
Proof.
  intros n q j L Lq. replace 0 with (degToRad 0) by (unfold degToRad; ring). rewrite map_nth. f_equal. 
  revert q j L Lq. induction n; intros q j L Lq; [lia|]. destruct q as [|a q]; [cbn in Lq; lia|].
  destruct j; [unfold degToRad; cbn; reflexivity|]. cbn. cbn in Lq.
  specialize (IHn q j). cbn in IHn. unfold degToRad in *. rewrite Rmult_0_l in *. apply IHn; lia.
Qed.

Lemma fk_all_good : forall cs q s, good cs q s -> length q = tree_joints (ts_tree s) ->
  forall ds, incl ds cs -> exists fs, fk_all (ts_tree s) q (map tc_name ds) = Some fs /\
    Forall2 (frame_at cs (fun j => nth j q 0)) (map tc_name ds) fs.
Proof.
  intros cs q s G L. induction ds as [|d ds IH]; intro I; [exists []; split; [reflexivity|constructor]|].
  destruct IH as (fs & E & F2); [intros x Hx; apply I; now right|].
  destruct (g_poses _ _ _ G (tc_name d)) as (f & Ff & Ef). { apply (g_there _ _ _ G), I. now left. }
  exists (f :: fs). split; [|constructor; auto]. cbn. unfold tree_fwd_kin. rewrite L, Nat.eqb_refl, Ef, E. reflexivity.
Qed.

Lemma F2_impl : forall A B (P Q : A -> B -> Prop) l l', (forall a b, P a b -> Q a b) -> Forall2 P l l' -> Forall2 Q l l'.
Proof. induction 2; constructor; auto. Qed.

(** C89 *)
Lemma tree_forward : forall cs mins maxs vels ik s lim, tree_open cs mins maxs vels ik = Some (s, lim) ->
  Forall described_chain cs ->
  getNumJoints s = list_sum (map (fun c => length (links_of c)) cs) /\ getNumTcps s = length (tcp_chains cs) /\
  forall q, (getNumJoints s <= length q)%nat ->
  exists fs, t_fwdKin s q = TTrue (concat (map frameToVector fs)) /\
    Forall2 (frame_at cs (fun j => degToRad (nth j q 0))) (map tc_name (tcp_chains cs)) fs.
Proof.
  intros cs mins maxs vels ik s lim Ho D. pose proof (open_good _ _ _ _ _ _ _ Ho D) as G.
  assert (N : getNumJoints s = first_joint cs (length cs)) by apply (g_joints _ _ _ (G [])).
  split. { rewrite N. unfold first_joint. now rewrite firstn_all. }
  split. { unfold getNumTcps. rewrite (g_endpoints _ _ _ (G [])). apply map_length. }
  intros q L. unfold t_fwdKin, t_joints.
  rewrite (proj2 (Nat.leb_le _ _) L).
  set (qr := map degToRad (firstn (getNumJoints s) q)).
  assert (Lq : length qr = tree_joints (ts_tree s)). { unfold qr. rewrite map_length, firstn_length. fold (getNumJoints s). lia. }
  destruct (fk_all_good cs qr s (G qr) Lq (tcp_chains cs)) as (fs & E & F2).
  { intros c I. apply filter_In in I. apply I. }
  rewrite (g_endpoints _ _ _ (G [])), E. exists fs. split; [reflexivity|].
  eapply F2_impl; [|exact F2]. intros n f H. eapply frame_at_ext; [|exact H].
  intros j Lj. cbn. unfold qr. rewrite rad_nth; auto. now rewrite N.
Qed.

Lemma pose_unique : forall cs mins maxs vels ik s lim, tree_open cs mins maxs vels ik = Some (s, lim) ->
  Forall described_chain cs -> forall x n f f', frame_at cs x n f -> frame_at cs x n f' -> f = f'.
Proof.
  intros cs mins maxs vels ik s lim Ho D x n f f' H H'. 
  set (q := map x (seq 0 (first_joint cs (length cs)))).
  pose proof (open_good _ _ _ _ _ _ _ Ho D q) as G.
  assert (X : forall j, (j < first_joint cs (length cs))%nat -> x j = (fun j => nth j q 0) j).
  { intros j L. unfold q. rewrite (nth_indep _ 0 (x 0%nat)) by (rewrite map_length, seq_length; exact L). now rewrite map_nth, seq_nth. }
  pose proof (g_unique _ _ _ G n f (frame_at_ext _ _ _ _ _ X H)).
  pose proof (g_unique _ _ _ G n f' (frame_at_ext _ _ _ _ _ X H')). congruence.
Qed.

(** moving the joints of a chain that is not on the way to a frame leaves the frame alone *)
Lemma pose_independent : forall cs x y n f k c, nth_error cs k = Some c -> ~ on_path cs n k ->
  (forall j, ~ (first_joint cs k <= j < first_joint cs k + length (links_of c))%nat -> x j = y j) ->
  frame_at cs x n f -> frame_at cs y n f.
Proof.
  intros cs x y n f k c E N X H.
  assert (A : forall k' c' m, nth_error cs k' = Some c' -> k' <> k -> (m <= length (links_of c'))%nat -> coordinates cs k' m x = coordinates cs k' m y).
  { intros k' c' m E' K L. unfold coordinates. apply map_ext_in. intros j I. apply in_seq in I. apply X. intros [L1 L2].
    assert (M : forall a b, (a < b)%nat -> (b <= length cs)%nat -> forall ca, nth_error cs a = Some ca -> (first_joint cs a + length (links_of ca) <= first_joint cs b)%nat).
    { intros a b Lab Lb ca Ea. rewrite <- (first_joint_S _ _ _ Ea). clear - Lab. unfold first_joint. revert cs b Lab.
      unfold list_sum. induction a as [|a IHa]; intros cs b Lab; destruct b as [|b]; try lia; destruct cs as [|c0 cs]; try (cbn; lia).
      specialize (IHa cs b ltac:(lia)). change (firstn (S (S a)) (c0 :: cs)) with (c0 :: firstn (S a) cs).
        change (firstn (S b) (c0 :: cs)) with (c0 :: firstn b cs). cbn [map fold_right]. lia. }
    assert (Lk : (k < length cs)%nat) by (apply nth_error_Some; congruence).
    assert (Lk' : (k' < length cs)%nat) by (apply nth_error_Some; congruence).
    destruct (Nat.lt_total k' k) as [Q|[Q|Q]]; [|contradiction|].
    - specialize (M k' k Q ltac:(lia) c' E'). lia.
    - specialize (M k k' Q ltac:(lia) c E). lia. }
  induction H as [|k' c' b h0 E' _ IH M0|k' c' b h0 i g f E' _ IH M0 Ei Lf|k' c' b h0 f hn E' _ IH M0 Lf MN].
  - constructor.
  - eapply at_H0; eauto. apply IH. intro P. apply N. eapply path_up; eauto. now left.
  - assert (K : k' <> k). { intros ->. apply N. eapply path_here; eauto. right; right; eauto. }
    eapply at_link; eauto. { apply IH. intro P. apply N. eapply path_up; eauto. right; right; eauto. }
    rewrite <- (A k' c'); auto. apply nth_error_Some. congruence.
  - assert (K : k' <> k). { intros ->. apply N. eapply path_here; eauto. right; now left. }
    eapply at_tip; eauto. { apply IH. intro P. apply N. eapply path_up; eauto. right; now left. }
    rewrite <- (A k' c'); auto.
Qed.

(** ** One chain *)
Lemma chain_fk_fold : forall c acc pre q, length q = nr_of_joints c ->
  chain_fk acc c q = Some (fold_pose acc c (length pre) (pre ++ q)).
Proof.
  induction c as [|s c IH]; intros acc pre q L.
  - destruct q; [|discriminate]. reflexivity.
  - unfold nr_of_joints in L. cbn [filter] in L. cbn [chain_fk fold_pose]. destruct (is_fixed (s_joint s)) eqn:Fx; cbn [negb] in L.
    + apply IH. exact L.
    + destruct q as [|x q]; [discriminate|]. cbn in L. injection L as L.
      rewrite app_nth2, Nat.sub_diag by lia. cbn [nth].
      specialize (IH (fmul acc (segment_pose s x)) (pre ++ [x]) q L). rewrite app_length in IH. cbn in IH.
      rewrite <- app_assoc in IH. cbn in IH. rewrite IH. f_equal. f_equal. lia.
Qed.

Lemma single_tree : forall name ch n c s, ch_numLinks ch = Some n -> open_chain (Ts [] [] []) (Tc name None ch true None) = Some s ->
  cfg_chain ch = Some c ->
  tree_joints (ts_tree s) = nr_of_joints c /\ ts_endpoints s = [name] /\ ts_merged s = [] /\
  forall q, tree_fk (ts_tree s) q name = Some (fold_pose fid c 0 q).
Proof.
  intros name ch n c s En Ho Ec. destruct (open_chain_inv _ _ _ Ho) as (segs & Eg & Ea & Ee & Em & _).
  cbn in Ee, Em, Ea. split; [|split; [exact Ee|split; [exact Em|]]].
  - destruct (add_chain_spec _ _ _ _ [] Ea (or_introl eq_refl)) as (_ & _ & _ & Nj & _).
    rewrite Nj. cbn. f_equal. unfold named_chain in Eg. unfold cfg_chain in Ec. cbn [tc_chain tc_name] in Eg.
    assert (E : ch_links 1 ch = ch_links 0 ch) by (unfold ch_links; now rewrite En). rewrite E in Ec.
    destruct (link_segments 0 (ch_links 0 ch)) as [ss|]; [|discriminate]. injection Eg as <-. injection Ec as <-.
    cbn [map snd app]. rewrite map_app, map_map. reflexivity.
  - intro q. destruct (add_chain_spec _ _ _ _ q Ea (or_introl eq_refl)) as (_ & _ & _ & _ & _ & _ & Eq).
    unfold named_chain in Eg. unfold cfg_chain in Ec. cbn [tc_chain tc_name] in Eg.
    assert (E : ch_links 1 ch = ch_links 0 ch) by (unfold ch_links; now rewrite En). rewrite E in Ec.
    destruct (link_segments 0 (ch_links 0 ch)) as [ss|]; [|discriminate]. injection Eg as <-. injection Ec as <-.
    destruct (Eq (S (length ss)) name (mk_segment none_joint (matrix_frame (ch_HN ch)))) as [_ E2].
    { cbn. rewrite nth_error_app2; rewrite map_length; [|lia]. now rewrite Nat.sub_diag. }
    rewrite E2. cbn [tree_fk String.eqb ts_tree option_map]. change (tree_fk [] q "root") with (Some fid). cbn [option_map]. f_equal.
    rewrite firstn_all2 by (rewrite map_length; cbn; rewrite app_length, map_length; cbn; lia).
    cbn [map snd app]. rewrite map_app, map_map. reflexivity.
Qed.

Lemma six_all : forall x, length x = 6%nat -> block x 0 = Some x.
Proof. intros x L. unfold block. rewrite L. cbn [Nat.mul skipn]. rewrite firstn_all2 by lia. reflexivity. Qed.

(** C90 *)
Lemma tree_is_chain : forall name ch n mins maxs vels ik s lim sc k ikp o i,
  ch_numLinks ch = Some n -> tree_open [Tc name None ch true None] mins maxs vels ik = Some (s, lim) ->
  kdl_open ch sc = Some (k, ikp) ->
  getNumJoints s = nr_of_joints k /\ getNumTcps s = 1%nat /\
  (forall q, t_fwdKin s q = match fwdKin (Sv k o i) q with Some x => TTrue x | None => TUndef end) /\
  (forall x y, length x = 6%nat -> length y = 6%nat ->
     t_poseDiff s x y = Some (poseDiff x y) /\ t_changeOrigin s x y = Some (changeOrigin x y)).
Proof.
  intros name ch n mins maxs vels ik s lim sc k ikp o i En Ho Hk.
  destruct (tree_open_inv _ _ _ _ _ _ _ Ho) as [Hc _]. cbn [open_chains] in Hc.
  destruct (open_chain (Ts [] [] []) (Tc name None ch true None)) as [s'|] eqn:E; [|discriminate]. injection Hc as ->.
  destruct (single_tree _ _ _ _ _ En E (kdl_open_chain _ _ _ _ Hk)) as (Nj & Ee & Em & Fk).
  split; [exact Nj|]. split; [unfold getNumTcps; now rewrite Ee|]. split.
  - intro q. unfold t_fwdKin, t_joints, fwdKin, joints_in. cbn [sv_chain]. unfold getNumJoints. rewrite Nj.
    destruct (Nat.leb (nr_of_joints k) (length q)) eqn:B; [|reflexivity]. apply Nat.leb_le in B.
    set (qr := map degToRad (firstn (nr_of_joints k) q)).
    assert (L : length qr = nr_of_joints k) by (unfold qr; rewrite map_length, firstn_length; lia).
    rewrite Ee. cbn [fk_all]. unfold tree_fwd_kin. rewrite Nj, L, Nat.eqb_refl, Fk.
    unfold chain_fwd_kin. rewrite (chain_fk_fold k fid [] qr L). cbn [app length option_map map concat]. now rewrite app_nil_r.
  - intros x y Lx Ly. unfold t_poseDiff, t_changeOrigin, getNumTcps. rewrite Ee. cbn [length seq blockwise].
    rewrite !six_all by assumption. rewrite !app_nil_r. split; reflexivity.
Qed.
