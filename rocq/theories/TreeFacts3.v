(** Proofs about the tree solver: the targets of the endpoints. *)
From Coq Require Import Reals Lra Lia List Bool Arith ZArith String.
From Verif Require Import Kdl KdlFacts KdlRot KinRep KdlSolver Config ConfigSpec ConfigFacts Tree TreeSpec TreeFacts TreeFacts2 Ft.
Import ListNotations.
Open Scope R_scope.
Local Notation S := Datatypes.S.
Local Notation length := List.length.
Local Notation concat := List.concat.

(** ** Maps *)
Lemma lookup_In : forall A (m : list (string * A)) k a, lookup m k = Some a -> In (k, a) m.
Proof.
  induction m as [|[k' a'] m IH]; intros k a H; [discriminate|]. cbn in H.
  destruct (String.eqb k' k) eqn:E; [apply String.eqb_eq in E; injection H as ->; subst; now left|right; auto].
Qed.
Lemma lookup_none : forall A (m : list (string * A)) k, ~ In k (map fst m) -> lookup m k = None.
Proof.
  induction m as [|[k' a'] m IH]; intros k H; [reflexivity|]. cbn in *.
  destruct (String.eqb k' k) eqn:E; [apply String.eqb_eq in E; subst; tauto|apply IH; tauto].
Qed.
Lemma lookup_some : forall A (m : list (string * A)) k, In k (map fst m) -> exists a, lookup m k = Some a.
Proof.
  induction m as [|[k' a'] m IH]; intros k H; [contradiction|]. cbn in *.
  destruct (String.eqb k' k) eqn:E; [eauto|]. apply IH. destruct H as [H|H]; [|exact H]. subst. rewrite String.eqb_refl in E. discriminate.
Qed.
Lemma lookup_nodup : forall A (m : list (string * A)) k a, NoDup (map fst m) -> In (k, a) m -> lookup m k = Some a.
Proof.
  induction m as [|[k' a'] m IH]; intros k a N H; [contradiction|]. cbn in *. inversion N; subst.
  destruct H as [H|H]; [injection H as <- <-; now rewrite String.eqb_refl|].
  destruct (String.eqb k' k) eqn:E; [|auto]. apply String.eqb_eq in E. subst. exfalso.
  apply (in_map fst) in H. auto.
Qed.

(** ** Merged endpoints *)
Definition mtable (ds : list tree_chain) : list (string * string) :=
  rev (concat (map (fun c => match tc_merge c with Some m => [(tc_name c, m)] | None => [] end) ds)).

Lemma mtable_keys : forall ds k w, In (k, w) (mtable ds) <-> exists c, In c ds /\ tc_name c = k /\ tc_merge c = Some w.
Proof.
  intros ds k w. unfold mtable. rewrite <- in_rev. rewrite in_concat. split.
  - intros (l & I & J). apply in_map_iff in I. destruct I as (c & E & I). exists c. split; [exact I|].
    destruct (tc_merge c); subst l; [|contradiction]. destruct J as [J|[]]. injection J as <- <-. auto.
  - intros (c & I & En & Em). exists [(k, w)]. split; [|now left]. apply in_map_iff. exists c. split; [|exact I].
    rewrite Em. now subst.
Qed.

Lemma NoDup_names : forall (ds : list tree_chain) c d, NoDup (map tc_name ds) -> In c ds -> In d ds -> tc_name c = tc_name d -> c = d.
Proof.
  induction ds as [|e ds IH]; intros c d N I J E; [contradiction|]. cbn in N. inversion N; subst.
  destruct I as [->|I], J as [->|J]; auto; exfalso.
  - apply (in_map tc_name) in J. rewrite <- E in J. auto.
  - apply (in_map tc_name) in I. rewrite E in I. auto.
Qed.

Lemma mtable_lookup : forall ds c, NoDup (map tc_name ds) -> In c ds -> lookup (mtable ds) (tc_name c) = tc_merge c.
Proof.
  intros ds c N I. destruct (lookup (mtable ds) (tc_name c)) as [w|] eqn:E.
  - apply lookup_In, mtable_keys in E. destruct E as (d & J & En & Em).
    rewrite (NoDup_names ds d c N J I En) in Em. auto.
  - destruct (tc_merge c) as [w|] eqn:Em; [|reflexivity].
    assert (J : In (tc_name c) (map fst (mtable ds))).
    { apply (in_map fst (mtable ds) (tc_name c, w)). apply mtable_keys. eauto. }
    destruct (lookup_some _ _ _ J). congruence.
Qed.

(** ** Targets *)
Definition asg {A} (conv : list R -> A) (ds : list tree_chain) (x : list R) (m : list (string * A)) : Prop :=
  map fst m = map tc_name ds /\
  forall i c, nth_error ds i = Some c ->
    match tc_merge c with
    | None => In (tc_name c, conv (six x (unmerged (firstn i ds)))) m
    | Some w => exists v, In (tc_name c, v) m /\ In (w, v) m
    end.

Lemma unmerged_app : forall a b, unmerged (a ++ b) = (unmerged a + unmerged b)%nat.
Proof. intros. unfold unmerged. now rewrite filter_app, app_length. Qed.

Lemma unmerged_snoc : forall a c, unmerged (a ++ [c]) = match tc_merge c with None => S (unmerged a) | Some _ => unmerged a end.
Proof. intros. rewrite unmerged_app. unfold unmerged at 2. cbn. destruct (tc_merge c); cbn; lia. Qed.

Lemma asg_snoc : forall A (conv : list R -> A) ds x m c v, asg conv ds x m ->
  match tc_merge c with None => v = conv (six x (unmerged ds)) | Some w => In (w, v) m end ->
  asg conv (ds ++ [c]) x (m ++ [(tc_name c, v)]).
Proof.
  intros A conv ds x m c v [K H] V. split; [now rewrite !map_app, K|].
  intros i d E. destruct (Nat.lt_ge_cases i (length ds)) as [L|L].
  - rewrite nth_error_app1 in E by exact L. specialize (H i d E). rewrite firstn_app. replace (i - length ds)%nat with 0%nat by lia.
    cbn [firstn]. rewrite app_nil_r. destruct (tc_merge d).
    + destruct H as (u & I & J). exists u. split; apply in_app_iff; now left.
    + apply in_app_iff. now left.
  - rewrite nth_error_app2 in E by exact L. destruct (i - length ds)%nat eqn:Z; [|destruct n; discriminate]. cbn in E. injection E as <-.
    assert (i = length ds) by lia. subst i. rewrite firstn_app, Nat.sub_diag, firstn_all. cbn [firstn]. rewrite app_nil_r.
    destruct (tc_merge c).
    + exists v. split; apply in_app_iff; [right; now left|now left].
    + subst v. apply in_app_iff. right. now left.
Qed.

Lemma targets_run : forall A (conv : list R -> A) dflt merged x rest pre m,
  (forall c, In c (pre ++ rest) -> lookup merged (tc_name c) = tc_merge c) ->
  NoDup (map tc_name (pre ++ rest)) ->
  (forall i c w, nth_error (pre ++ rest) i = Some c -> tc_merge c = Some w -> In w (map tc_name (firstn i (pre ++ rest)))) ->
  asg conv pre x m -> (6 * unmerged pre <= length x)%nat ->
  match targets conv dflt merged (map tc_name rest) x (unmerged pre) m with
  | Some m' => asg conv (pre ++ rest) x m' /\ (6 * unmerged (pre ++ rest) <= length x)%nat
  | None => (length x < 6 * unmerged (pre ++ rest))%nat
  end.
Proof.
  intros A conv dflt merged x rest. induction rest as [|c rest IH]; intros pre m Hm ND Hw Ha L.
  - cbn. rewrite app_nil_r. auto.
  - cbn [map targets]. rewrite Hm by (apply in_app_iff; right; now left).
    assert (Fr : ~ In (tc_name c) (map fst m)).
    { destruct Ha as [K _]. rewrite K. rewrite map_app in ND. cbn in ND. apply NoDup_remove_2 in ND.
      intro I. apply ND, in_app_iff. now left. }
    assert (Ec : nth_error (pre ++ c :: rest) (length pre) = Some c) by (rewrite nth_error_app2, Nat.sub_diag by lia; reflexivity).
    specialize (IH (pre ++ [c])). rewrite <- app_assoc in IH. cbn [app] in IH.
    destruct (tc_merge c) as [w|] eqn:Mc.
    + assert (Iw : In w (map fst m)).
      { destruct Ha as [K _]. rewrite K. specialize (Hw _ _ _ Ec Mc). rewrite firstn_app, Nat.sub_diag, firstn_all in Hw. cbn [firstn] in Hw. now rewrite app_nil_r in Hw. }
      destruct (lookup_some _ _ _ Iw) as [v Ev]. assert (Ew : emplace m w dflt = m) by (unfold emplace; now rewrite Ev).
      rewrite Ew, Ev. assert (Ee : emplace m (tc_name c) v = m ++ [(tc_name c, v)]) by (unfold emplace; now rewrite (lookup_none _ _ _ Fr)).
      rewrite Ee.
      specialize (IH (m ++ [(tc_name c, v)]) Hm ND Hw). rewrite unmerged_snoc, Mc in IH.
      apply IH; [|lia]. apply asg_snoc; [exact Ha|]. rewrite Mc. now apply lookup_In.
    + unfold block. destruct (Nat.leb ((unmerged pre + 1) * 6) (length x)) eqn:B.
      * apply Nat.leb_le in B. unfold emplace. rewrite (lookup_none _ _ _ Fr).
        specialize (IH (m ++ [(tc_name c, conv (firstn 6 (skipn (unmerged pre * 6) x)))]) Hm ND Hw).
        rewrite unmerged_snoc, Mc in IH.
        apply IH; [|lia]. apply asg_snoc; [exact Ha|]. rewrite Mc. unfold six. now rewrite Nat.mul_comm.
      * apply Nat.leb_gt in B. rewrite unmerged_app. unfold unmerged at 2. cbn. rewrite Mc. cbn. lia.
Qed.

Lemma asg_nil : forall A (conv : list R -> A) x, asg conv [] x [].
Proof. intros. split; [reflexivity|]. intros i c E. destruct i; discriminate. Qed.

Lemma filter_NoDup : forall (cs : list tree_chain) p, NoDup (map tc_name cs) -> NoDup (map tc_name (filter p cs)).
Proof.
  induction cs as [|c cs IH]; intros p N; [constructor|]. cbn in N. inversion N; subst. cbn. destruct (p c); [|auto].
  cbn. constructor; [|auto]. intro I. apply in_map_iff in I. destruct I as (d & E & J). apply filter_In in J.
  apply H1. rewrite <- E. apply in_map. apply J.
Qed.

Lemma targets_assigned : forall A (conv : list R -> A) dflt cs s, good cs [] s -> no_self_merge cs -> forall x,
  match targets conv dflt (ts_merged s) (ts_endpoints s) x 0 [] with
  | Some m => assigned conv cs x m /\ (6 * unmerged (tcp_chains cs) <= length x)%nat
  | None => (length x < 6 * unmerged (tcp_chains cs))%nat
  end.
Proof.
  intros A conv dflt cs s G NS x. rewrite (g_endpoints _ _ _ G), (g_merged _ _ _ G).
  change (rev (concat (map (fun c => match tc_merge c with Some m => [(tc_name c, m)] | None => [] end) (tcp_chains cs)))) with (mtable (tcp_chains cs)).
  assert (ND : NoDup (map tc_name (tcp_chains cs))) by (apply filter_NoDup, (g_names _ _ _ G)).
  pose proof (targets_run A conv dflt (mtable (tcp_chains cs)) x (tcp_chains cs) [] []) as T. cbn [app] in T.
  apply T.
  - intros c I. now apply mtable_lookup.
  - exact ND.
  - intros i c w E M. pose proof (g_known _ _ _ G i c w E M) as I.
    assert (X : firstn (S i) (tcp_chains cs) = firstn i (tcp_chains cs) ++ [c]).
    { clear - E. revert i E. induction (tcp_chains cs) as [|d l IH]; intros i E; [destruct i; discriminate|].
      destruct i; cbn in E; [injection E as ->; reflexivity|]. cbn [firstn app]. f_equal. now apply IH. }
    rewrite X, map_app in I. apply in_app_iff in I. destruct I as [I|[I|[]]]; [exact I|]. exfalso.
    apply (NS c); [|congruence]. apply nth_error_In in E. apply filter_In in E. apply E.
  - apply asg_nil.
  - cbn. lia.
Qed.

(** C52 *)
Lemma merged_targets : forall cs mins maxs vels ik s lim, tree_open cs mins maxs vels ik = Some (s, lim) ->
  Forall described_chain cs -> no_self_merge cs -> forall x q, (6 * unmerged (tcp_chains cs) <= length x)%nat -> (getNumJoints s <= length q)%nat ->
  let qr := map degToRad (firstn (getNumJoints s) q) in
  (exists m, assigned vectorToFrame cs x m /\ forall k, t_invKin k s x q BASE_FRAME = match k_ik k qr m with None => TFalse | Some r => TTrue (map radToDeg r) end) /\
  (exists m, assigned vectorToTwist cs x m /\ forall k, t_diffInvKin k s q x BASE_FRAME = match k_vel k qr m with None => TFalse | Some r => TTrue (map radToDeg r) end) /\
  (exists m, assigned vectorToWrench cs x m /\ forall k qd qdd, (getNumJoints s <= length qd)%nat -> (getNumJoints s <= length qdd)%nat ->
     t_invDyn k s q qd qdd x TCP_FRAME =
     match k_dyn k qr (map degToRad (firstn (getNumJoints s) qd)) (map degToRad (firstn (getNumJoints s) qdd)) m with None => TFalse | Some r => TTrue r end).
Proof.
  intros cs mins maxs vels ik s lim Ho D NS x q Lx Lq qr. pose proof (open_good _ _ _ _ _ _ _ Ho D []) as G.
  assert (J : t_joints s q = Some qr) by (unfold t_joints; now rewrite (proj2 (Nat.leb_le _ _) Lq)).
  split; [|split].
  - pose proof (targets_assigned _ vectorToFrame fid cs s G NS x) as T.
    destruct (targets vectorToFrame fid (ts_merged s) (ts_endpoints s) x 0 []) as [m|] eqn:E; [|lia].
    exists m. split; [apply T|]. intro k. unfold t_invKin. rewrite E, J. reflexivity.
  - pose proof (targets_assigned _ vectorToTwist twist_zero cs s G NS x) as T.
    destruct (targets vectorToTwist twist_zero (ts_merged s) (ts_endpoints s) x 0 []) as [m|] eqn:E; [|lia].
    exists m. split; [apply T|]. intro k. unfold t_diffInvKin. rewrite E, J. reflexivity.
  - pose proof (targets_assigned _ vectorToWrench wrench_zero cs s G NS x) as T.
    destruct (targets vectorToWrench wrench_zero (ts_merged s) (ts_endpoints s) x 0 []) as [m|] eqn:E; [|lia].
    exists m. split; [apply T|]. intros k qd qdd L1 L2. unfold t_invDyn. rewrite E, J. unfold t_joints.
    rewrite (proj2 (Nat.leb_le _ _) L1), (proj2 (Nat.leb_le _ _) L2). reflexivity.
Qed.

Lemma short_targets : forall cs mins maxs vels ik s lim, tree_open cs mins maxs vels ik = Some (s, lim) ->
  Forall described_chain cs -> no_self_merge cs -> forall x q fr, (length x < 6 * unmerged (tcp_chains cs))%nat \/ (length q < getNumJoints s)%nat ->
  forall k, t_invKin k s x q fr = TUndef /\ t_diffInvKin k s q x fr = TUndef.
Proof.
  intros cs mins maxs vels ik s lim Ho D NS x q fr H k. pose proof (open_good _ _ _ _ _ _ _ Ho D []) as G.
  pose proof (targets_assigned _ vectorToFrame fid cs s G NS x) as T1.
  pose proof (targets_assigned _ vectorToTwist twist_zero cs s G NS x) as T2.
  unfold t_invKin, t_diffInvKin.
  destruct (targets vectorToFrame fid (ts_merged s) (ts_endpoints s) x 0 []), (targets vectorToTwist twist_zero (ts_merged s) (ts_endpoints s) x 0 []);
    split; try reflexivity; unfold t_joints; (destruct H as [H|H]; [exfalso; destruct T1, T2; lia || lia|]);
    rewrite (proj2 (Nat.leb_gt _ _) H); reflexivity.
Qed.

(** ** Change of basis *)
Lemma update_keys : forall A (m : list (string * A)) k f, map fst (update m k f) = map fst m.
Proof. intros. unfold update. rewrite map_map. apply map_ext. intros [k' a]. cbn. destruct (String.eqb k' k); reflexivity. Qed.

Lemma rebase_run : forall A (act : frame -> A -> A) cs q s, good cs q s -> length q = tree_joints (ts_tree s) ->
  forall es m, NoDup es -> (forall e, In e es -> has_segment (ts_tree s) e = true) -> 
  exists m', rebase (ts_tree s) q act es m = Some m' /\ map fst m' = map fst m /\
    (forall n v f, In (n, v) m -> In n es -> frame_at cs (fun j => nth j q 0) n f -> In (n, act f v) m') /\
    (forall n v, In (n, v) m -> ~ In n es -> In (n, v) m').
Proof.
  intros A act cs q s G L. induction es as [|e es IH]; intros m N H.
  - exists m. repeat split; auto. contradiction.
  - inversion N; subst. cbn [rebase]. unfold tree_fwd_kin. rewrite L, Nat.eqb_refl.
    destruct (g_poses _ _ _ G e) as (h & Fh & Eh); [apply H; now left|]. rewrite Eh.
    destruct (IH (update m e (act h)) H3) as (m' & E & K & In1 & In2); [intros; apply H; now right|].
    exists m'. split; [exact E|]. split; [now rewrite K, update_keys|].
    assert (U : forall n v, In (n, v) m -> In (n, if String.eqb n e then act h v else v) (update m e (act h))).
    { intros n v I. apply (in_map (fun p => if String.eqb (fst p) e then (fst p, act h (snd p)) else p)) in I. cbn in I.
      destruct (String.eqb n e); exact I. }
    split.
    + intros n v f I J Ff. specialize (U n v I). destruct (String.eqb n e) eqn:X.
      * apply String.eqb_eq in X. subst n. 
        replace f with h; [apply (In2 e (act h v) U H2)|]. apply (g_unique _ _ _ G) in Ff. congruence.
      * apply String.eqb_neq in X. destruct J as [J|J]; [congruence|]. apply (In1 n v f U J Ff).
    + intros n v I J. specialize (U n v I). destruct (String.eqb n e) eqn:X.
      * apply String.eqb_eq in X. subst. elim J. now left.
      * apply In2; [exact U|]. intro; apply J; now right.
Qed.

Lemma rebase_rebased : forall A (act : frame -> A -> A) conv cs mins maxs vels ik s lim, tree_open cs mins maxs vels ik = Some (s, lim) ->
  Forall described_chain cs -> forall x q m, (getNumJoints s <= length q)%nat -> assigned conv cs x m ->
  exists m', rebase (ts_tree s) (map degToRad (firstn (getNumJoints s) q)) act (ts_endpoints s) m = Some m' /\
    rebased act cs (fun j => degToRad (nth j q 0)) m m'.
Proof.
  intros A act conv cs mins maxs vels ik s lim Ho D x q m Lq [K _].
  set (qr := map degToRad (firstn (getNumJoints s) q)).
  pose proof (open_good _ _ _ _ _ _ _ Ho D qr) as G.
  assert (L : length qr = tree_joints (ts_tree s)). { unfold qr. rewrite map_length, firstn_length. fold (getNumJoints s). lia. }
  assert (N : getNumJoints s = first_joint cs (length cs)) by apply (g_joints _ _ _ G).
  destruct (rebase_run A act cs qr s G L (ts_endpoints s) m) as (m' & E & K' & In1 & _).
  - rewrite (g_endpoints _ _ _ G). apply filter_NoDup, (g_names _ _ _ G).
  - intros e I. rewrite (g_endpoints _ _ _ G) in I. apply in_map_iff in I. destruct I as (c & <- & I). apply filter_In in I.
    apply (g_there _ _ _ G), I.
  - exists m'. split; [exact E|]. split; [exact K'|]. intros n v f I Ff. apply (In1 n v f I).
    + rewrite (g_endpoints _ _ _ G), <- K. apply (in_map fst) in I. exact I.
    + eapply frame_at_ext; [|exact Ff]. intros j Lj. cbn. unfold qr. rewrite rad_nth; auto. now rewrite N.
Qed.

(** C92 *)
Lemma tcp_targets : forall cs mins maxs vels ik s lim, tree_open cs mins maxs vels ik = Some (s, lim) ->
  Forall described_chain cs -> no_self_merge cs -> forall x q, (6 * unmerged (tcp_chains cs) <= length x)%nat -> (getNumJoints s <= length q)%nat ->
  let qr := map degToRad (firstn (getNumJoints s) q) in
  (exists m m', assigned vectorToFrame cs x m /\ rebased fmul cs (fun j => degToRad (nth j q 0)) m m' /\
     forall k, t_invKin k s x q TCP_FRAME = match k_ik k qr m' with None => TFalse | Some r => TTrue (map radToDeg r) end) /\
  (exists m m', assigned vectorToTwist cs x m /\ rebased (fun h t => Tw (mv (fM h) (t_vel t)) (mv (fM h) (t_rot t))) cs (fun j => degToRad (nth j q 0)) m m' /\
     forall k, t_diffInvKin k s q x TCP_FRAME = match k_vel k qr m' with None => TFalse | Some r => TTrue (map radToDeg r) end) /\
  (exists m m', assigned vectorToWrench cs x m /\
     rebased (fun h w => Wr (mv (mT (fM h)) (w_force w)) (mv (mT (fM h)) (w_torque w))) cs (fun j => degToRad (nth j q 0)) m m' /\
     forall k qd qdd, (getNumJoints s <= length qd)%nat -> (getNumJoints s <= length qdd)%nat ->
     t_invDyn k s q qd qdd x BASE_FRAME =
     match k_dyn k qr (map degToRad (firstn (getNumJoints s) qd)) (map degToRad (firstn (getNumJoints s) qdd)) m' with None => TFalse | Some r => TTrue r end).
Proof.
  intros cs mins maxs vels ik s lim Ho D NS x q Lx Lq qr. pose proof (open_good _ _ _ _ _ _ _ Ho D []) as G.
  assert (J : t_joints s q = Some qr) by (unfold t_joints; now rewrite (proj2 (Nat.leb_le _ _) Lq)).
  split; [|split].
  - pose proof (targets_assigned _ vectorToFrame fid cs s G NS x) as T.
    destruct (targets vectorToFrame fid (ts_merged s) (ts_endpoints s) x 0 []) as [m|] eqn:E; [|lia]. destruct T as [T _].
    destruct (rebase_rebased _ fmul _ _ _ _ _ _ _ _ Ho D x q m Lq T) as (m' & E' & R).
    exists m, m'. split; [exact T|]. split; [exact R|]. intro k. unfold t_invKin. rewrite E, J. fold qr in E'. rewrite E'. reflexivity.
  - pose proof (targets_assigned _ vectorToTwist twist_zero cs s G NS x) as T.
    destruct (targets vectorToTwist twist_zero (ts_merged s) (ts_endpoints s) x 0 []) as [m|] eqn:E; [|lia]. destruct T as [T _].
    destruct (rebase_rebased _ (fun h => trot (fM h)) _ _ _ _ _ _ _ _ Ho D x q m Lq T) as (m' & E' & R).
    exists m, m'. split; [exact T|]. split; [exact R|]. intro k. unfold t_diffInvKin. rewrite E, J. fold qr in E'. rewrite E'. reflexivity.
  - pose proof (targets_assigned _ vectorToWrench wrench_zero cs s G NS x) as T.
    destruct (targets vectorToWrench wrench_zero (ts_merged s) (ts_endpoints s) x 0 []) as [m|] eqn:E; [|lia]. destruct T as [T _].
    destruct (rebase_rebased _ (fun h => wrot (mT (fM h))) _ _ _ _ _ _ _ _ Ho D x q m Lq T) as (m' & E' & R).
    exists m, m'. split; [exact T|]. split; [exact R|]. intros k qd qdd L1 L2. unfold t_invDyn. rewrite E, J. unfold t_joints.
    rewrite (proj2 (Nat.leb_le _ _) L1), (proj2 (Nat.leb_le _ _) L2). fold qr in E'. rewrite E'. reflexivity.
Qed.

(** the chain solver *)
Lemma joints_fk : forall c q qr, joints_in c q = Some qr -> exists f, chain_fwd_kin c qr = Some f.
Proof.
  intros c q qr H. unfold joints_in in H. destruct (Nat.leb (nr_of_joints c) (length q)) eqn:B; [|discriminate]. apply Nat.leb_le in B.
  injection H as <-. unfold chain_fwd_kin. rewrite (chain_fk_fold c fid [] _); [eauto|]. rewrite map_length, firstn_length. lia.
Qed.

Lemma tw_round : forall t, vectorToTwist (twistToVector t) = t. Proof. intros [[] []]; reflexivity. Qed.
Lemma wr_round : forall t, vectorToWrench (wrenchToVector t) = t. Proof. intros [[] []]; reflexivity. Qed.

Lemma chain_tcp_twist : forall s q, (nr_of_joints (sv_chain s) <= length q)%nat ->
  exists f, fwdKin s q = Some (frameToVector f) /\
  (forall k v, diffInvKin k s q (twistToVector v) TCP_FRAME = diffInvKin k s q (twistToVector (Tw (mv (fM f) (t_vel v)) (mv (fM f) (t_rot v)))) BASE_FRAME) /\
  (forall k qd qdd w, invDyn k s q qd qdd (wrenchToVector w) BASE_FRAME =
     invDyn k s q qd qdd (wrenchToVector (Wr (mv (mT (fM f)) (w_force w)) (mv (mT (fM f)) (w_torque w)))) TCP_FRAME).
Proof.
  intros s q L. assert (J : joints_in (sv_chain s) q = Some (map degToRad (firstn (nr_of_joints (sv_chain s)) q))).
  { unfold joints_in. now rewrite (proj2 (Nat.leb_le _ _) L). }
  destruct (joints_fk _ _ _ J) as [f Ef]. exists f. split; [unfold fwdKin; now rewrite J, Ef|]. split.
  - intros k v. unfold diffInvKin. rewrite J, Ef, !tw_round. reflexivity.
  - intros k qd qdd w. unfold invDyn. rewrite J. destruct (joints_in (sv_chain s) qd), (joints_in (sv_chain s) qdd); try reflexivity.
    rewrite Ef, !wr_round. reflexivity.
Qed.

Lemma other_frames : forall kc s q v qd qdd w, let n := nr_of_joints (sv_chain s) in
  (n <= length q)%nat -> (n <= length qd)%nat -> (n <= length qdd)%nat ->
  diffInvKin kc s q v OTHER_FRAME = TFalse /\ invDyn kc s q qd qdd w OTHER_FRAME = TFalse.
Proof.
  intros kc s q v qd qdd w n A B C. unfold diffInvKin, invDyn, joints_in. fold n.
  now rewrite !(proj2 (Nat.leb_le _ _) A), (proj2 (Nat.leb_le _ _) B), (proj2 (Nat.leb_le _ _) C).
Qed.
Lemma other_tree_frames : forall cs mins maxs vels ik s lim, tree_open cs mins maxs vels ik = Some (s, lim) ->
  Forall described_chain cs -> no_self_merge cs -> forall kt q v qd qdd, (6 * unmerged (tcp_chains cs) <= length v)%nat ->
  (getNumJoints s <= length q)%nat -> (getNumJoints s <= length qd)%nat -> (getNumJoints s <= length qdd)%nat ->
  t_invKin kt s v q OTHER_FRAME = TFalse /\ t_diffInvKin kt s q v OTHER_FRAME = TFalse /\ t_invDyn kt s q qd qdd v OTHER_FRAME = TFalse.
Proof.
  intros cs mins maxs vels ik s lim Ho D NS kt q v qd qdd L A B C.
  pose proof (open_good _ _ _ _ _ _ _ Ho D []) as G.
  unfold t_invKin, t_diffInvKin, t_invDyn, t_joints.
  rewrite !(proj2 (Nat.leb_le _ _) A), (proj2 (Nat.leb_le _ _) B), (proj2 (Nat.leb_le _ _) C).
  pose proof (targets_assigned _ vectorToFrame fid cs s G NS v) as T1.
  pose proof (targets_assigned _ vectorToTwist twist_zero cs s G NS v) as T2.
  pose proof (targets_assigned _ vectorToWrench wrench_zero cs s G NS v) as T3.
  destruct (targets vectorToFrame fid (ts_merged s) (ts_endpoints s) v 0 []); [|lia].
  destruct (targets vectorToTwist twist_zero (ts_merged s) (ts_endpoints s) v 0 []); [|lia].
  destruct (targets vectorToWrench wrench_zero (ts_merged s) (ts_endpoints s) v 0 []); [|lia].
  auto.
Qed.
