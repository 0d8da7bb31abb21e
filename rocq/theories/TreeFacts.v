(** Proofs about the tree solver: the tree and forward kinematics. *)
From Coq Require Import Reals Lra Lia List Bool Arith ZArith String.
From Verif Require Import Kdl KdlFacts KdlRot KinRep KdlSolver Config ConfigSpec ConfigFacts Tree TreeSpec.
Import ListNotations.
Open Scope R_scope.
Local Notation S := Datatypes.S.
Local Notation length := List.length.
Local Notation concat := List.concat.

(** ** KDL's tree *)
Lemma fixed_pose : forall s x y, is_fixed (s_joint s) = true -> segment_pose s x = segment_pose s y.
Proof. intros [j f] x y H. cbn in H. unfold segment_pose, joint_pose; cbn. unfold is_fixed in H. destruct (j_type j); try discriminate. reflexivity. Qed.

Fixpoint fold_pose (b : frame) (ss : list segment) (j : nat) (q : list R) : frame :=
  match ss with
  | [] => b
  | s :: ss' => if is_fixed (s_joint s) then fold_pose (fmul b (segment_pose s 0)) ss' j q
                else fold_pose (fmul b (segment_pose s (nth j q 0))) ss' (S j) q
  end.

Lemma has_cons : forall n t name, has_segment (n :: t) name = (String.eqb (nd_name n) name || has_segment t name)%bool.
Proof.
  intros. unfold has_segment. cbn. destruct (String.eqb name "root"), (String.eqb (nd_name n) name); reflexivity.
Qed.

Lemma fk_known : forall t q n f, tree_fk t q n = Some f -> has_segment t n = true.
Proof.
  induction t as [|d t IH]; intros q n f H; cbn in H.
  - unfold has_segment. destruct (String.eqb n "root"); [reflexivity|discriminate].
  - rewrite has_cons. destruct (String.eqb (nd_name d) n); [reflexivity|]. cbn. eapply IH, H.
Qed.

Lemma add_segment_inv : forall t name s hook t', add_segment t name s hook = Some t' ->
  has_segment t hook = true /\ has_segment t name = false /\
  t' = Nd name s hook (if is_fixed (s_joint s) then 0%nat else tree_joints t) :: t.
Proof.
  intros t name s hook t' H. unfold add_segment in H.
  destruct (has_segment t hook) eqn:A; [|discriminate]. destruct (has_segment t name) eqn:B; [discriminate|].
  cbn in H. injection H as <-. auto.
Qed.

Lemma add_chain_spec : forall segs t hook t' q, add_chain t segs hook = Some t' -> has_segment t hook = true \/ segs <> [] ->
  has_segment t hook = true /\
  (forall n, has_segment t n = true -> has_segment t' n = true /\ tree_fk t' q n = tree_fk t q n) /\
  (forall n, has_segment t' n = true -> has_segment t n = true \/ In n (map fst segs)) /\
  tree_joints t' = (tree_joints t + nr_of_joints (map snd segs))%nat /\
  (forall n, In n (map fst segs) -> has_segment t n = false) /\ NoDup (map fst segs) /\
  (forall i name s, nth_error segs i = Some (name, s) -> has_segment t' name = true /\
     tree_fk t' q name = option_map (fun b => fold_pose b (firstn (S i) (map snd segs)) (tree_joints t) q) (tree_fk t q hook)).
Proof.
  induction segs as [|[name s] segs IH]; intros t hook t' q H Hk.
  - cbn in H. injection H as <-. destruct Hk as [Hk|Hk]; [|congruence].
    split; [exact Hk|]. split; [auto|]. split; [auto|]. split; [cbn; lia|]. split; [contradiction|]. split; [constructor|].
    intros i n0 s0 E. destruct i; discriminate.
  - cbn [add_chain] in H. destruct (add_segment t name s hook) as [t1|] eqn:A; [|discriminate].
    destruct (add_segment_inv _ _ _ _ _ A) as (Hh & Fr & Et). 
    assert (Hn : has_segment t1 name = true) by (rewrite Et, has_cons; cbn [nd_name]; now rewrite String.eqb_refl).
    destruct (IH t1 name t' q H (or_introl Hn)) as (_ & Ext & Cov & Nj & Fresh & ND & Eq).
    assert (E1 : forall n, has_segment t n = true -> has_segment t1 n = true /\ tree_fk t1 q n = tree_fk t q n).
    { intros n Hn'. assert (X : String.eqb name n = false).
      { apply String.eqb_neq. intros ->. congruence. }
      rewrite Et. rewrite has_cons. cbn [nd_name tree_fk]. rewrite X. auto. }
    assert (J1 : tree_joints t1 = (tree_joints t + (if is_fixed (s_joint s) then 0 else 1))%nat).
    { rewrite Et. unfold tree_joints. cbn [filter nd_seg]. destruct (is_fixed (s_joint s)); cbn; lia. }
    assert (K1 : tree_fk t1 q name = option_map (fun b => fmul b (segment_pose s (if is_fixed (s_joint s) then 0 else nth (tree_joints t) q 0))) (tree_fk t q hook)).
    { rewrite Et. cbn [tree_fk nd_name nd_parent nd_seg nd_q]. rewrite String.eqb_refl.
      destruct (tree_fk t q hook); [|reflexivity]. cbn. f_equal. f_equal.
      destruct (is_fixed (s_joint s)) eqn:Fx; [apply fixed_pose, Fx|reflexivity]. }
    split; [exact Hh|]. split.
    { intros n Hn'. destruct (E1 n Hn') as [a b]. destruct (Ext n a) as [c d]. split; [exact c|congruence]. }
    split.
    { intros n Hn'. destruct (Cov n Hn') as [B|B]; [|right; right; exact B].
      rewrite Et, has_cons in B. cbn [nd_name] in B. apply orb_true_iff in B. destruct B as [B|B]; [|now left].
      apply String.eqb_eq in B. right; left. exact B. }
    split. { rewrite Nj, J1. unfold nr_of_joints. cbn [map snd filter]. destruct (is_fixed (s_joint s)); cbn; lia. }
    split.
    { intros n [E|I]; [cbn in E; now subst|]. specialize (Fresh n I). rewrite Et, has_cons in Fresh.
      now apply orb_false_iff in Fresh. }
    split.
    { cbn. constructor; [|exact ND]. intro I. specialize (Fresh name I). congruence. }
    intros i n0 s0 E. destruct i as [|i].
    + cbn in E. injection E as <- <-. destruct (Ext name Hn) as [a b]. split; [exact a|].
      rewrite b, K1. cbn [map firstn snd fold_pose]. destruct (tree_fk t q hook); [|reflexivity]. cbn.
      destruct (is_fixed (s_joint s)); reflexivity.
    + cbn in E. destruct (Eq i n0 s0 E) as [a b]. split; [exact a|]. rewrite b, K1.
      change (firstn (S (S i)) (map snd ((name, s) :: segs))) with (s :: firstn (S i) (map snd segs)). cbn [fold_pose].
      destruct (tree_fk t q hook); [|reflexivity]. cbn [option_map]. f_equal.
      rewrite J1. destruct (is_fixed (s_joint s)); f_equal; lia.
Qed.

(** ** Links *)
Definition link_of (g : link_groups) (s : nat * bool * segment) : Prop :=
  link_segment g = Some (Some (snd (fst s), snd s)) /\ is_fixed (s_joint (snd s)) = false /\ forall x, link_at g x (segment_pose (snd s) x).

Lemma fold_app : forall a c b j q, fold_pose b (a ++ c) j q = fold_pose (fold_pose b a j q) c (j + nr_of_joints a) q.
Proof.
  induction a as [|s a IH]; intros c b j q; cbn [app fold_pose].
  - f_equal. cbn. lia.
  - unfold nr_of_joints. cbn [filter]. destruct (is_fixed (s_joint s)); cbn [negb]; rewrite IH; f_equal; unfold nr_of_joints; cbn; lia.
Qed.

Lemma fold_links : forall gs ss, Forall2 link_of gs ss -> forall m j q b, (m <= length gs)%nat ->
  exists f, links_at (firstn m gs) (map (fun i => nth i q 0) (seq j m)) f /\
    fold_pose b (firstn m (map snd ss)) j q = fmul b f.
Proof.
  induction 1 as [|g s gs ss (Es & Fx & P) F2 IH]; intros m j q b L.
  - destruct m; [|cbn in L; lia]. exists fid. split; [constructor|]. cbn. now rewrite fmul_id_r.
  - destruct m as [|m]. { exists fid. split; [constructor|]. cbn. now rewrite fmul_id_r. }
    destruct (IH m (S j) q (fmul b (segment_pose (snd s) (nth j q 0)))) as (f & Lf & E); [cbn in L; lia|].
    exists (fmul (segment_pose (snd s) (nth j q 0)) f). split; [cbn; constructor; auto|].
    cbn [map firstn fold_pose]. rewrite Fx, E. apply fmul_assoc.
Qed.

Lemma ch_links_of : forall c, ch_links 0 (tc_chain c) = links_of c.
Proof. intro c. unfold ch_links, links_of. destruct (ch_numLinks (tc_chain c)); reflexivity. Qed.

Lemma seq_nth_error : forall n j i, (i < n)%nat -> nth_error (seq j n) i = Some (j + i)%nat.
Proof.
  induction n; intros j i L; [lia|]. destruct i; cbn; [f_equal; lia|]. rewrite IHn by lia. f_equal. lia.
Qed.

Lemma F2_nth : forall A B (P : A -> B -> Prop) l l', Forall2 P l l' -> forall i a, nth_error l i = Some a -> exists b, nth_error l' i = Some b /\ P a b.
Proof. induction 1; intros i a E; destruct i; cbn in *; try discriminate; [injection E as ->; eauto|eauto]. Qed.
Lemma F2_len : forall A B (P : A -> B -> Prop) l l', Forall2 P l l' -> length l = length l'.
Proof. induction 1; cbn; auto. Qed.

(** one chain, once added *)
Lemma chain_added : forall c t t' segs q, described_chain c -> named_chain c = Some segs ->
  add_chain t segs (hook_of c) = Some t' ->
  has_segment t (hook_of c) = true /\
  (forall n, has_segment t n = true -> has_segment t' n = true /\ tree_fk t' q n = tree_fk t q n) /\
  (forall n, has_segment t' n = true -> has_segment t n = true \/ frame_of c n) /\
  tree_joints t' = (tree_joints t + length (links_of c))%nat /\
  has_segment t (tc_name c) = false /\ has_segment t' (tc_name c) = true /\
  forall h0 hn, matrix_at (ch_H0 (tc_chain c)) h0 -> matrix_at (ch_HN (tc_chain c)) hn ->
  tree_fk t' q (tc_name c ++ "_H0") = option_map (fun b => fmul b h0) (tree_fk t q (hook_of c)) /\
  (forall i g, nth_error (links_of c) i = Some g -> exists f,
     links_at (firstn (S i) (links_of c)) (map (fun j => nth j q 0) (seq (tree_joints t) (S i))) f /\
     tree_fk t' q (link_name c i g) = option_map (fun b => fmul b (fmul h0 f)) (tree_fk t q (hook_of c))) /\
  exists f, links_at (links_of c) (map (fun j => nth j q 0) (seq (tree_joints t) (length (links_of c)))) f /\
     tree_fk t' q (tc_name c) = option_map (fun b => fmul b (fmul h0 (fmul f hn))) (tree_fk t q (hook_of c)).
Proof.
  intros c t t' segs q (D & (m0 & M0) & (mn & MN)) Hn Ha. unfold named_chain in Hn. rewrite ch_links_of in Hn.
  destruct (link_segments_spec (links_of c) 0 D) as (ss & Es & Ei & F2). rewrite Es in Hn.
  pose proof (nr_links _ _ F2) as NL. fold link_of in F2.
  set (H0s := mk_segment none_joint (matrix_frame (ch_H0 (tc_chain c)))) in *.
  set (HNs := mk_segment none_joint (matrix_frame (ch_HN (tc_chain c)))) in *.
  set (mid_ := map (fun x => (segment_name (tc_name c) (fst (fst x)) (snd (fst x)), snd x)) ss) in *.
  assert (Eg : segs = ((tc_name c ++ "_H0")%string, H0s) :: mid_ ++ [(tc_name c, HNs)]) by (cbn in Hn; congruence).
  clear Hn. subst segs.
  assert (Em : map snd mid_ = map snd ss). { unfold mid_. rewrite map_map. reflexivity. }
  assert (Lm : length mid_ = length (links_of c)). { unfold mid_. rewrite map_length. symmetry. exact (F2_len _ _ _ _ _ F2). }
  destruct (add_chain_spec _ _ _ _ q Ha) as (Hh & Ext & Cov & Nj & Fresh & ND & Eq); [right; discriminate|].
  assert (Names : forall n, In n (map fst (((tc_name c ++ "_H0")%string, H0s) :: mid_ ++ [(tc_name c, HNs)])) -> frame_of c n).
  { intros n I. cbn [map fst] in I. destruct I as [<-|I]; [now left|]. rewrite map_app in I. apply in_app_iff in I.
    destruct I as [I|[<-|[]]]; [|right; now left]. right; right.
    apply in_map_iff in I. destruct I as ([n' s'] & E & I). cbn in E. subst n'.
    apply In_nth_error in I. destruct I as [i E].
    unfold mid_ in E. rewrite nth_error_map in E. destruct (nth_error ss i) as [[[i' b] sg]|] eqn:Ess; [|discriminate].
    cbn in E. injection E as En Esg.
    assert (Li : (i < length (links_of c))%nat).
    { rewrite (F2_len _ _ _ _ _ F2). apply nth_error_Some. congruence. }
    assert (Ei' : i' = i).
    { pose proof (f_equal (fun l => nth_error l i) Ei) as X. cbn in X. rewrite nth_error_map, Ess, seq_nth_error in X by exact Li. cbn in X. congruence. }
    destruct (nth_error (links_of c) i) as [g|] eqn:Eg; [|apply nth_error_None in Eg; lia].
    exists i, g. split; [exact Eg|]. destruct (F2_nth _ _ _ _ _ F2 i g Eg) as (s1 & E1 & (G & _ & _)).
    rewrite Ess in E1. injection E1 as <-. cbn in G. subst i'. rewrite <- En. unfold segment_name, link_name.
    assert (B : b = match lg_dh g with Some _ => true | None => false end).
    { unfold link_segment in G. destruct (lg_dh g); [congruence|]. destruct (lg_xyz g); [|discriminate].
      destruct (type_joint (xl_type x)); cbn in G; congruence. }
    rewrite B. destruct (lg_dh g); reflexivity. }
  split; [exact Hh|]. split; [exact Ext|]. split.
  { intros n H. destruct (Cov n H) as [A|A]; [now left|right; now apply Names]. }
  split.
  { rewrite Nj. cbn [map snd]. rewrite map_app, Em. unfold nr_of_joints in *. cbn [filter H0s mk_segment s_joint]. cbn. rewrite filter_app, app_length, NL. cbn. lia. }
  assert (Itip : nth_error (((tc_name c ++ "_H0")%string, H0s) :: mid_ ++ [(tc_name c, HNs)]) (S (length mid_)) = Some (tc_name c, HNs)).
  { cbn. rewrite nth_error_app2, Nat.sub_diag by lia. reflexivity. }
  split.
  { apply Fresh. apply nth_error_In in Itip. apply (in_map fst) in Itip. exact Itip. }
  split. { exact (proj1 (Eq _ _ _ Itip)). }
  intros h0 hn A0 AN. 
  assert (P0 : segment_pose H0s 0 = h0) by (unfold H0s; rewrite none_pose; now apply matrix_frame_spec).
  assert (PN : segment_pose HNs 0 = hn) by (unfold HNs; rewrite none_pose; now apply matrix_frame_spec).
  split; [|split].
  - destruct (Eq 0%nat _ _ eq_refl) as [_ E]. rewrite E. cbn [map firstn snd fold_pose].
    change (is_fixed (s_joint H0s)) with true. cbn iota. now rewrite P0.
  - intros i g Eg. assert (Li : (i < length (links_of c))%nat) by (apply nth_error_Some; congruence).
    destruct (F2_nth _ _ _ _ _ F2 i g Eg) as ([[i' b] sg] & Ess & (G & _ & _)). cbn in G.
    assert (Ei' : i' = i).
    { pose proof (f_equal (fun l => nth_error l i) Ei) as X. cbn in X. rewrite nth_error_map, Ess, seq_nth_error in X by exact Li. cbn in X. congruence. }
    subst i'.
    assert (B : b = match lg_dh g with Some _ => true | None => false end).
    { unfold link_segment in G. destruct (lg_dh g); [congruence|]. destruct (lg_xyz g); [|discriminate].
      destruct (type_joint (xl_type x)); cbn in G; congruence. }
    assert (En : nth_error (((tc_name c ++ "_H0")%string, H0s) :: mid_ ++ [(tc_name c, HNs)]) (S i) = Some (link_name c i g, sg)).
    { cbn. rewrite nth_error_app1 by lia. unfold mid_. rewrite nth_error_map, Ess. cbn. unfold segment_name, link_name. rewrite B. destruct (lg_dh g); reflexivity. }
    destruct (Eq _ _ _ En) as [_ E].
    destruct (fold_links _ _ F2 (S i) (tree_joints t) q fid) as (f & Lf & _); [lia|].
    exists f. split; [exact Lf|]. rewrite E. destruct (tree_fk t q (hook_of c)) as [b0|]; [|reflexivity]. cbn [option_map]. f_equal.
    cbn [map snd]. rewrite map_app, Em. change (firstn (S (S i)) (H0s :: ?l)) with (H0s :: firstn (S i) l).
    cbn [fold_pose]. change (is_fixed (s_joint H0s)) with true. cbn iota. rewrite P0.
    rewrite firstn_app. replace (S i - length (map snd ss))%nat with 0%nat.
    2:{ rewrite map_length, <- (F2_len _ _ _ _ _ F2). lia. }
    cbn [firstn]. rewrite app_nil_r.
    destruct (fold_links _ _ F2 (S i) (tree_joints t) q (fmul b0 h0)) as (f2 & Lf2 & E2); [lia|].
    change (firstn (S i) (map snd ss)) with (firstn (S i) (map snd ss)) in E2. 
    cbn [firstn] in E2 |- *. rewrite E2. rewrite (links_at_fun _ _ _ Lf2 _ Lf). apply fmul_assoc.
  - destruct (Eq _ _ _ Itip) as [_ E].
    destruct (fold_links _ _ F2 (length (links_of c)) (tree_joints t) q fid) as (f & Lf & _); [lia|].
    rewrite firstn_all in Lf.
    exists f. split; [exact Lf|]. rewrite E. destruct (tree_fk t q (hook_of c)) as [b0|]; [|reflexivity]. cbn [option_map]. f_equal.
    rewrite firstn_all2 by (rewrite map_length; cbn; rewrite app_length; cbn; lia).
    cbn [map snd]. rewrite map_app, Em. cbn [fold_pose]. change (is_fixed (s_joint H0s)) with true. cbn iota. rewrite P0.
    rewrite fold_app.
    destruct (fold_links _ _ F2 (length (links_of c)) (tree_joints t) q (fmul b0 h0)) as (f2 & Lf2 & E2); [lia|].
    rewrite firstn_all in Lf2. rewrite firstn_all2 in E2 by (rewrite map_length, <- (F2_len _ _ _ _ _ F2); lia).
    rewrite E2, (links_at_fun _ _ _ Lf2 _ Lf). cbn [map snd fold_pose]. change (is_fixed (s_joint HNs)) with true. cbn iota.
    now rewrite PN, !fmul_assoc.
Qed.

(** ** The whole tree *)
Lemma open_chains_app : forall a b s, open_chains s (a ++ b) = match open_chains s a with Some s' => open_chains s' b | None => None end.
Proof. induction a as [|c a IH]; intros b s; [reflexivity|]. cbn. destruct (open_chain s c); [apply IH|reflexivity]. Qed.

Lemma open_chain_inv : forall s c s', open_chain s c = Some s' ->
  exists segs, named_chain c = Some segs /\ add_chain (ts_tree s) segs (hook_of c) = Some (ts_tree s') /\
    ts_endpoints s' = ts_endpoints s ++ (if tc_endpoint c then [tc_name c] else []) /\
    ts_merged s' = (if tc_endpoint c then match tc_merge c with Some m => [(tc_name c, m)] | None => [] end else []) ++ ts_merged s /\
    (forall m, tc_endpoint c = true -> tc_merge c = Some m -> In m (ts_endpoints s')).
Proof.
  intros s c s' H. unfold open_chain in H. destruct (named_chain c) as [segs|]; [|discriminate].
  change (or_default (tc_hook c) "root"%string) with (hook_of c) in H.
  exists segs. split; [reflexivity|].
  destruct (add_chain (ts_tree s) segs (hook_of c)) as [t|]; [|discriminate].
  destruct (tc_endpoint c).
  - destruct (tc_merge c) as [m|].
    + destruct (existsb (String.eqb m) (ts_endpoints s ++ [tc_name c])) eqn:X; [|discriminate]. injection H as <-. cbn.
      repeat split. intros m' _ Em. injection Em as <-. apply existsb_exists in X. destruct X as (y & I & E).
      apply String.eqb_eq in E. now subst.
    + injection H as <-. cbn. repeat split. discriminate.
  - injection H as <-. cbn. rewrite app_nil_r. repeat split. discriminate.
Qed.

Lemma first_joint_app : forall cs ds k, (k <= length cs)%nat -> first_joint (cs ++ ds) k = first_joint cs k.
Proof. intros. unfold first_joint. rewrite firstn_app. replace (k - length cs)%nat with 0%nat by lia. cbn. now rewrite app_nil_r. Qed.
Lemma first_joint_all : forall cs c, first_joint (cs ++ [c]) (length (cs ++ [c])) = (first_joint cs (length cs) + length (links_of c))%nat.
Proof.
  intros. unfold first_joint. rewrite !firstn_all. rewrite map_app, list_sum_app. cbn. lia.
Qed.

Lemma frame_at_app : forall cs ds x n f, frame_at cs x n f -> frame_at (cs ++ ds) x n f.
Proof.
  intros cs ds x n f H.
  assert (A : forall k c, nth_error cs k = Some c -> nth_error (cs ++ ds) k = Some c /\ forall m, coordinates (cs ++ ds) k m x = coordinates cs k m x).
  { intros k c E. assert (L : (k < length cs)%nat) by (apply nth_error_Some; congruence). split.
    - now rewrite nth_error_app1.
    - intro m. unfold coordinates. rewrite first_joint_app by lia. reflexivity. }
  induction H as [|k c b h0 E _ IH M0|k c b h0 i g f E _ IH M0 Ei Lf|k c b h0 f hn E _ IH M0 Lf MN];
    [constructor | destruct (A k c E) as [E' C] ..].
  - eapply at_H0; eauto.
  - eapply at_link; eauto. rewrite C. exact Lf.
  - eapply at_tip; eauto. rewrite C. exact Lf.
Qed.

Record good (cs : list tree_chain) (q : list R) (s : tsolver) : Prop := Good {
  g_joints : tree_joints (ts_tree s) = first_joint cs (length cs);
  g_poses : forall n, has_segment (ts_tree s) n = true -> exists f, frame_at cs (fun j => nth j q 0) n f /\ tree_fk (ts_tree s) q n = Some f;
  g_unique : forall n f, frame_at cs (fun j => nth j q 0) n f -> tree_fk (ts_tree s) q n = Some f;
  g_names : NoDup (map tc_name cs);
  g_there : forall c, In c cs -> has_segment (ts_tree s) (tc_name c) = true;
  g_hooks : forall c, In c cs -> has_segment (ts_tree s) (hook_of c) = true;
  g_endpoints : ts_endpoints s = map tc_name (tcp_chains cs);
  g_merged : ts_merged s = rev (concat (map (fun c => match tc_merge c with Some m => [(tc_name c, m)] | None => [] end) (tcp_chains cs)));
  g_known : forall i c m, nth_error (tcp_chains cs) i = Some c -> tc_merge c = Some m -> In m (map tc_name (firstn (S i) (tcp_chains cs)))
}.

Lemma good_nil : forall q, good [] q (Ts [] [] []).
Proof.
  intro q. constructor; try reflexivity; cbn.
  - intros n H. unfold has_segment in H. cbn in H. rewrite orb_false_r in H. apply String.eqb_eq in H. subst n.
    exists fid. split; [constructor|reflexivity].
  - intros n f H. induction H; [reflexivity| destruct k; discriminate ..].
  - constructor.
  - contradiction.
  - contradiction.
  - intros i c m E. destruct i; discriminate.
Qed.

Lemma NoDup_snoc : forall A (l : list A) a, NoDup l -> ~ In a l -> NoDup (l ++ [a]).
Proof.
  induction l as [|b l IH]; intros a N I; cbn; [repeat constructor; auto|].
  inversion N; subst. constructor.
  - rewrite in_app_iff. cbn. intros [X|[X|[]]]; [contradiction|subst; apply I; now left].
  - apply IH; [assumption|]. intro; apply I; now right.
Qed.

Lemma good_step : forall cs q s c s', described_chain c -> good cs q s -> open_chain s c = Some s' -> good (cs ++ [c]) q s'.
Proof.
  intros cs q s c s' D G Ho. destruct (open_chain_inv _ _ _ Ho) as (segs & En & Ea & Ee & Em & Ek).
  destruct (chain_added c _ _ segs q D En Ea) as (Hh & Ext & Cov & Nj & Fresh & There & Eqs).
  destruct D as (D & (h0 & M0) & (hn & MN)).
  assert (Etcp : tcp_chains (cs ++ [c]) = tcp_chains cs ++ (if tc_endpoint c then [c] else [])).
  { unfold tcp_chains. rewrite filter_app. cbn. destruct (tc_endpoint c); reflexivity. }
  assert (Ec : nth_error (cs ++ [c]) (length cs) = Some c) by (rewrite nth_error_app2, Nat.sub_diag by lia; reflexivity).
  assert (Hb : exists b, frame_at (cs ++ [c]) (fun j => nth j q 0) (hook_of c) b /\ tree_fk (ts_tree s) q (hook_of c) = Some b).
  { destruct (g_poses _ _ _ G _ Hh) as (b & Fb & Eb). exists b. split; [now apply frame_at_app|exact Eb]. }
  destruct Hb as (b & Fb & Eb).
  assert (Co : forall m, coordinates (cs ++ [c]) (length cs) m (fun j => nth j q 0) = map (fun j => nth j q 0) (seq (tree_joints (ts_tree s)) m)).
  { intro m. unfold coordinates. rewrite first_joint_app by lia. now rewrite <- (g_joints _ _ _ G). }
  constructor.
  - rewrite Nj, (g_joints _ _ _ G), first_joint_all. reflexivity.
  - intros n H. destruct (Cov n H) as [A|A].
    + destruct (g_poses _ _ _ G n A) as (f & Ff & Ef). exists f. split; [now apply frame_at_app|].
      rewrite (proj2 (Ext n A)). exact Ef.
    + destruct (Eqs h0 hn M0 MN) as (E0 & El & (ft & Lt & Et)). destruct A as [->|[->|(i & g & Eg & ->)]].
      * exists (fmul b h0). split; [eapply at_H0; eauto|]. rewrite E0, Eb. reflexivity.
      * exists (fmul b (fmul h0 (fmul ft hn))). split; [eapply at_tip; eauto; now rewrite Co|]. rewrite Et, Eb. reflexivity.
      * destruct (El i g Eg) as (f & Lf & E). exists (fmul b (fmul h0 f)). split; [eapply at_link; eauto; now rewrite Co|]. rewrite E, Eb. reflexivity.
  - assert (Old : forall n f, frame_at cs (fun j => nth j q 0) n f -> tree_fk (ts_tree s') q n = Some f).
    { intros n f H. pose proof (g_unique _ _ _ G n f H) as E. rewrite <- E. apply Ext. eapply fk_known, E. }
    assert (Back : forall d b0, In d cs -> tree_fk (ts_tree s') q (hook_of d) = Some b0 -> frame_at cs (fun j => nth j q 0) (hook_of d) b0).
    { intros d b0 I E. pose proof (g_hooks _ _ _ G d I) as Hd. destruct (g_poses _ _ _ G _ Hd) as (f0 & F0 & E0).
      rewrite (proj2 (Ext _ Hd)) in E. congruence. }
    intros n f H. induction H as [|k d b' h0' E Fb' IH M0'|k d b' h0' i g f E Fb' IH M0' Ei Lf|k d b' h0' f hn' E Fb' IH M0' Lf MN'].
    + rewrite (proj2 (Ext "root"%string eq_refl)). apply (g_unique _ _ _ G). constructor.
    + destruct (Nat.lt_ge_cases k (length cs)) as [L|L].
      * rewrite nth_error_app1 in E by exact L. apply Old. eapply at_H0; eauto.
        apply Back; [eapply nth_error_In, E|exact IH].
      * rewrite nth_error_app2 in E by exact L. destruct (k - length cs)%nat eqn:Z; [|destruct n; discriminate]. cbn in E. injection E as <-.
        destruct (Eqs h0' hn M0' MN) as (E0 & _). rewrite E0. rewrite <- (proj2 (Ext _ Hh)), IH. reflexivity.
    + destruct (Nat.lt_ge_cases k (length cs)) as [L|L].
      * rewrite nth_error_app1 in E by exact L. apply Old. eapply at_link; eauto.
        { apply Back; [eapply nth_error_In, E|exact IH]. }
        unfold coordinates in Lf |- *. rewrite first_joint_app in Lf by lia. exact Lf.
      * rewrite nth_error_app2 in E by exact L. destruct (k - length cs)%nat eqn:Z; [|destruct n; discriminate]. cbn in E. injection E as <-.
        assert (k = length cs) by lia. subst k. rewrite Co in Lf.
        destruct (Eqs h0' hn M0' MN) as (_ & El & _). destruct (El i g Ei) as (f2 & Lf2 & E2). rewrite E2.
        rewrite <- (proj2 (Ext _ Hh)), IH, (links_at_fun _ _ _ Lf2 _ Lf). reflexivity.
    + destruct (Nat.lt_ge_cases k (length cs)) as [L|L].
      * rewrite nth_error_app1 in E by exact L. apply Old. eapply at_tip; eauto.
        { apply Back; [eapply nth_error_In, E|exact IH]. }
        unfold coordinates in Lf |- *. rewrite first_joint_app in Lf by lia. exact Lf.
      * rewrite nth_error_app2 in E by exact L. destruct (k - length cs)%nat eqn:Z; [|destruct n; discriminate]. cbn in E. injection E as <-.
        assert (k = length cs) by lia. subst k. rewrite Co in Lf.
        destruct (Eqs h0' hn' M0' MN') as (_ & _ & (f2 & Lf2 & E2)). rewrite E2.
        rewrite <- (proj2 (Ext _ Hh)), IH, (links_at_fun _ _ _ Lf2 _ Lf). reflexivity.
  - rewrite map_app. apply NoDup_snoc; [apply (g_names _ _ _ G)|]. intro I. apply in_map_iff in I.
    destruct I as (d & E & I). apply (g_there _ _ _ G) in I. congruence.
  - intros d I. apply in_app_iff in I. destruct I as [I|[<-|[]]]; [|exact There].
    apply Ext. now apply (g_there _ _ _ G).
  - intros d I. apply in_app_iff in I. destruct I as [I|[<-|[]]]; [|now apply Ext].
    apply Ext. now apply (g_hooks _ _ _ G).
  - rewrite Ee, Etcp, map_app, (g_endpoints _ _ _ G). destruct (tc_endpoint c); reflexivity.
  - rewrite Em, Etcp, map_app, concat_app, rev_app_distr, (g_merged _ _ _ G). f_equal.
    destruct (tc_endpoint c); [|reflexivity]. cbn. destruct (tc_merge c); reflexivity.
  - intros i d m E X. rewrite Etcp in E |- *. destruct (Nat.lt_ge_cases i (length (tcp_chains cs))) as [L|L].
    + rewrite nth_error_app1 in E by exact L. rewrite firstn_app. replace (S i - length (tcp_chains cs))%nat with 0%nat by lia.
      cbn [firstn]. rewrite app_nil_r. exact (g_known _ _ _ G i d m E X).
    + rewrite nth_error_app2 in E by exact L. destruct (tc_endpoint c) eqn:T; [|destruct (i - _)%nat; discriminate].
      destruct (i - length (tcp_chains cs))%nat eqn:Z; [|destruct n; discriminate]. cbn in E. injection E as <-.
      rewrite firstn_all2 by (rewrite app_length; cbn; lia).
      specialize (Ek m eq_refl X). rewrite Ee, (g_endpoints _ _ _ G) in Ek. rewrite map_app. exact Ek.
Qed.
