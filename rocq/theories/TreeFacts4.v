(** Proofs about the tree solver: feeding poses back, concrete trees. *)
From Coq Require Import Reals Lra Lia List Bool Arith ZArith String.
From Verif Require Import Kdl KdlFacts KdlRot KdlRotFacts KinRep KdlSolver Config ConfigSpec ConfigFacts Tree TreeSpec TreeFacts TreeFacts2 TreeFacts3 Ft.
Import ListNotations.
Open Scope R_scope.
Local Notation S := Datatypes.S.
Local Notation length := List.length.
Local Notation concat := List.concat.

(** ** Poses fed back as targets *)
Lemma six_poses : forall fs i f, nth_error fs i = Some f -> six (concat (map frameToVector fs)) i = frameToVector f.
Proof.
  induction fs as [|g fs IH]; intros i f E; [destruct i; discriminate|]. destruct i as [|i].
  - cbn in E. injection E as ->. reflexivity.
  - cbn [nth_error] in E. unfold six. replace (6 * S i)%nat with (6 + 6 * i)%nat by lia. cbn [map concat]. unfold frameToVector at 1.
    cbn [app Nat.add skipn]. apply (IH i f E).
Qed.

Lemma all_unmerged : forall ds, (forall c, In c ds -> tc_merge c = None) -> unmerged ds = length ds.
Proof.
  induction ds as [|d ds IH]; intro H; [reflexivity|]. unfold unmerged. cbn. rewrite (H d) by now left. cbn. f_equal.
  apply IH. intros; apply H; now right.
Qed.

Lemma unmerged_le : forall ds, (unmerged ds <= length ds)%nat.
Proof. intro. unfold unmerged. induction ds as [|d ds IH]; cbn; [lia|]. destruct (tc_merge d); cbn; lia. Qed.

Lemma nth_firstn : forall A (l : list A) i j, (j < i)%nat -> nth_error (firstn i l) j = nth_error l j.
Proof. induction l; intros [|i] j L; try lia; [destruct j; reflexivity|]. destruct j; [reflexivity|]. cbn. apply IHl. lia. Qed.

(** C91 *)
Lemma poses_back : forall cs mins maxs vels ik s lim, tree_open cs mins maxs vels ik = Some (s, lim) ->
  Forall described_chain cs -> no_self_merge cs -> merged_last cs ->
  forall q x, (getNumJoints s <= length q)%nat -> t_fwdKin s q = TTrue x ->
  exists m, (forall k q0, (getNumJoints s <= length q0)%nat -> t_invKin k s x q0 BASE_FRAME =
      match k_ik k (map degToRad (firstn (getNumJoints s) q0)) m with None => TFalse | Some r => TTrue (map radToDeg r) end) /\
    forall c f, In c (tcp_chains cs) -> tc_merge c = None -> frame_at cs (fun j => degToRad (nth j q 0)) (tc_name c) f ->
      In (tc_name c, vectorToFrame (frameToVector f)) m.
Proof.
  intros cs mins maxs vels ik s lim Ho D NS ML q x Lq Ex.
  destruct (tree_forward _ _ _ _ _ _ _ Ho D) as (_ & _ & Fw). destruct (Fw q Lq) as (fs & E & F2).
  rewrite Ex in E. injection E as ->. pose proof (F2_len _ _ _ _ _ F2) as Lf. rewrite map_length in Lf.
  assert (Lx : (6 * unmerged (tcp_chains cs) <= length (concat (map frameToVector fs)))%nat).
  { pose proof (unmerged_le (tcp_chains cs)). 
    assert (X : length (concat (map frameToVector fs)) = (6 * length fs)%nat). { clear. induction fs; [reflexivity|]. cbn [map concat]. rewrite app_length, IHfs. cbn. lia. }
    rewrite X. lia. }
  pose proof (open_good _ _ _ _ _ _ _ Ho D []) as G.
  pose proof (targets_assigned _ vectorToFrame fid cs s G NS (concat (map frameToVector fs))) as T.
  destruct (targets vectorToFrame fid (ts_merged s) (ts_endpoints s) (concat (map frameToVector fs)) 0 []) as [m|] eqn:Em; [|lia].
  destruct T as [[_ T] _]. exists m. split.
  - intros k q0 L0. unfold t_invKin, t_joints. rewrite Em, (proj2 (Nat.leb_le _ _) L0). reflexivity.
  - intros c f I Mc Ff. apply In_nth_error in I. destruct I as [i Ei]. specialize (T i c Ei). rewrite Mc in T.
    rewrite all_unmerged in T.
    + rewrite firstn_length, Nat.min_l in T by (apply Nat.lt_le_incl, nth_error_Some; congruence).
      destruct (F2_nth _ _ _ _ _ F2 i (tc_name c)) as (f' & Ef & Ff'). { rewrite nth_error_map, Ei. reflexivity. }
      rewrite (six_poses _ _ _ Ef) in T. rewrite (pose_unique _ _ _ _ _ _ _ Ho D _ _ _ _ Ff Ff'). exact T.
    + intros d J. apply In_nth_error in J. destruct J as [j Ej].
      assert (Lj : (j < i)%nat). { assert (j < length (firstn i (tcp_chains cs)))%nat by (apply nth_error_Some; congruence). rewrite firstn_length in H. lia. }
      rewrite nth_firstn in Ej by exact Lj. destruct (tc_merge d) eqn:Md; [|reflexivity]. exfalso.
      refine (ML j i d c Lj Ej Ei _ Mc). congruence.
Qed.

(** ** Three fixed chains, the second merged with the first *)
Definition at_x (a : R) : list R := [1; 0; 0; a; 0; 1; 0; 0; 0; 0; 1; 0; 0; 0; 0; 1].
Definition post (name : string) (a : R) (merge : option string) : tree_chain :=
  Tc name None (Ch None (Some (at_x a)) (fun _ => Lg None None) None) true merge.
Definition posts : list tree_chain := [post "A" 1 None; post "B" 2 (Some "A"%string); post "C" 3 None].
Definition posts_tree : tsolver :=
  Ts [Nd "C" (mk_segment none_joint fid) "C_H0" 0; Nd "C_H0" (mk_segment none_joint (matrix_frame (Some (at_x 3)))) "root" 0;
      Nd "B" (mk_segment none_joint fid) "B_H0" 0; Nd "B_H0" (mk_segment none_joint (matrix_frame (Some (at_x 2)))) "root" 0;
      Nd "A" (mk_segment none_joint fid) "A_H0" 0; Nd "A_H0" (mk_segment none_joint (matrix_frame (Some (at_x 1)))) "root" 0]
     ["A"; "B"; "C"]%string [("B", "A")]%string.
Lemma posts_open : tree_open posts (Some []) (Some []) (Some []) None = Some (posts_tree, ([], [], [])).
Proof. reflexivity. Qed.
Lemma matrix16 : forall a, matrix_at (Some (at_x a)) (F mid (V a 0 0)). Proof. intro a. apply (row_by_row 1 0 0 a 0 1 0 0 0 0 1 0 0 0 0 1). Qed.
Lemma post_described : forall n a m, described_chain (post n a m).
Proof. intros. repeat split; [constructor|exists (F mid (V a 0 0)); apply matrix16|exists fid; constructor]. Qed.
Lemma posts_described : Forall described_chain posts.
Proof. repeat (constructor; [apply post_described|]). constructor. Qed.
Lemma posts_no_self : no_self_merge posts.
Proof. intros c [<-|[<-|[<-|[]]]]; cbn; discriminate. Qed.

Lemma post_pose : forall cs k n a m x, nth_error cs k = Some (post n a m) -> frame_at cs x n (F mid (V a 0 0)).
Proof.
  intros cs k n a m x E.
  replace (F mid (V a 0 0)) with (fmul fid (fmul (F mid (V a 0 0)) (fmul fid fid))) by now rewrite !fmul_id_l, fmul_id_r.
  apply (at_tip cs x k (post n a m)); [exact E|constructor|apply matrix16|constructor|constructor].
Qed.

Lemma shift_vector : forall a, frameToVector (F mid (V a 0 0)) = [a; 0; 0; 0; 0; 0].
Proof. intro a. unfold frameToVector. cbn [fM fp]. rewrite GetRot_id. reflexivity. Qed.

Lemma posts_forward : t_fwdKin posts_tree [] = TTrue [1; 0; 0; 0; 0; 0; 2; 0; 0; 0; 0; 0; 3; 0; 0; 0; 0; 0].
Proof.
  destruct (tree_forward _ _ _ _ _ _ _ posts_open posts_described) as (_ & _ & Fw).
  destruct (Fw [] ltac:(cbn; lia)) as (fs & E & F2). rewrite E. f_equal.
  assert (X : fs = [F mid (V 1 0 0); F mid (V 2 0 0); F mid (V 3 0 0)]).
  { cbn in F2. inversion F2 as [|? f1 ? l1 P1 Q1]; subst. inversion Q1 as [|? f2 ? l2 P2 Q2]; subst. inversion Q2 as [|? f3 ? l3 P3 Q3]; subst.
    inversion Q3; subst.
    rewrite (pose_unique _ _ _ _ _ _ _ posts_open posts_described _ _ _ _ P1 (post_pose posts 0 "A" 1 None _ eq_refl)).
    rewrite (pose_unique _ _ _ _ _ _ _ posts_open posts_described _ _ _ _ P2 (post_pose posts 1 "B" 2 _ _ eq_refl)).
    rewrite (pose_unique _ _ _ _ _ _ _ posts_open posts_described _ _ _ _ P3 (post_pose posts 2 "C" 3 None _ eq_refl)). reflexivity. }
  subst fs. cbn [map concat]. rewrite !shift_vector. reflexivity.
Qed.

Lemma vec_frame : forall a, vectorToFrame [a; 0; 0; 0; 0; 0] = F mid (V a 0 0).
Proof.
  intro a. unfold vectorToFrame, Rot. f_equal. replace (norm (V 0 0 0)) with 0; [apply Rot2_zero|].
  symmetry. unfold norm, dot; cbn. replace (0 * 0 + 0 * 0 + 0 * 0) with 0 by ring. apply sqrt_0.
Qed.

Lemma poses_shifted : exists cs mins maxs vels ik s lim q x m c f, tree_open cs mins maxs vels ik = Some (s, lim) /\
  Forall described_chain cs /\ no_self_merge cs /\ (getNumJoints s <= length q)%nat /\ t_fwdKin s q = TTrue x /\
  (forall k, t_invKin k s x q BASE_FRAME = match k_ik k (map degToRad q) m with None => TFalse | Some r => TTrue (map radToDeg r) end) /\
  In c (tcp_chains cs) /\ tc_merge c = None /\ frame_at cs (fun j => degToRad (nth j q 0)) (tc_name c) f /\
  ~ In (tc_name c, vectorToFrame (frameToVector f)) m.
Proof.
  exists posts, (Some []), (Some []), (Some []), None, posts_tree, ([], [], []), [], [1; 0; 0; 0; 0; 0; 2; 0; 0; 0; 0; 0; 3; 0; 0; 0; 0; 0].
  exists [("A"%string, vectorToFrame [1; 0; 0; 0; 0; 0]); ("B"%string, vectorToFrame [1; 0; 0; 0; 0; 0]); ("C"%string, vectorToFrame [2; 0; 0; 0; 0; 0])].
  exists (post "C" 3 None), (F mid (V 3 0 0)).
  split; [apply posts_open|]. split; [apply posts_described|]. split; [apply posts_no_self|]. split; [cbn; lia|].
  split; [apply posts_forward|]. split; [reflexivity|]. split; [cbn; tauto|]. split; [reflexivity|].
  split; [exact (post_pose posts 2 "C" 3 None _ eq_refl)|].
  rewrite shift_vector, !vec_frame. cbn. intros [H|[H|[H|[]]]]; try discriminate. 
  apply (f_equal (fun p => vx (fp (snd p)))) in H. cbn in H. lra.
Qed.

(** ** A chain merged with itself *)
Definition narcissus : list tree_chain := [post "A" 1 (Some "A"%string)].
Lemma self_merge : exists cs mins maxs vels ik s lim c, tree_open cs mins maxs vels ik = Some (s, lim) /\ Forall described_chain cs /\
  In c (tcp_chains cs) /\ tc_merge c = Some (tc_name c) /\
  forall k x, t_invKin k s x [] BASE_FRAME = match k_ik k [] [(tc_name c, fid)] with None => TFalse | Some r => TTrue (map radToDeg r) end.
Proof.
  exists narcissus, (Some []), (Some []), (Some []), None. eexists. exists ([], [], []), (post "A" 1 (Some "A"%string)).
  split; [reflexivity|]. split; [constructor; [apply post_described|constructor]|]. split; [cbn; tauto|]. split; [reflexivity|].
  intros k x. reflexivity.
Qed.

(** ** A trunk with two arms, the second one merged with the first *)
Definition turn_link (t : string) : nat -> link_groups := fun _ => Lg None (Some (Xyz 0 0 1 t)).
Definition torso : list tree_chain :=
  [Tc "trunk" None (Ch (Some 1%Z) None (turn_link "RotZ") None) false None;
   Tc "right" (Some "trunk"%string) (Ch (Some 1%Z) (Some (at_x 1)) (turn_link "InvRotX") None) true None;
   Tc "left" (Some "trunk_xyzLink_0"%string) (Ch (Some 1%Z) (Some (at_x (-1))) (fun _ => Lg (Some (Dh 0 1 2 90)) None) None) true (Some "right"%string)].
Definition three (a : R) : option (list R) := Some [a; a; a].
Lemma three_limits : limits_ok [-10; -10; -10] [10; 10; 10] = true.
Proof. cbn. pose proof PI_RGT_0. unfold degToRad. rewrite !(proj2 (Rltb_false _ _)) by nra. reflexivity. Qed.
Lemma torso_chains : exists s, open_chains (Ts [] [] []) torso = Some s /\ getNumJoints s = 3%nat.
Proof. eexists. split; reflexivity. Qed.
Lemma three_given : retrieveTreeLimits 3 (three (-10)) (three 10) (three 1) =
  Some (map degToRad [-10; -10; -10], map degToRad [10; 10; 10], map degToRad [1; 1; 1]).
Proof.
  unfold retrieveTreeLimits, retrieveJointLimits, three.
  change (negb (Nat.eqb (length [10; 10; 10]) 3 && Nat.eqb (length [-10; -10; -10]) 3)) with false. cbv iota. now rewrite three_limits.
Qed.
Lemma torso_open : exists s lim, tree_open torso (three (-10)) (three 10) (three 1) (Some "online"%string) = Some (s, lim) /\ getNumJoints s = 3%nat.
Proof.
  destruct torso_chains as (s & E & N). exists s. eexists. split; [|exact N].
  unfold tree_open. rewrite E. unfold getNumJoints in N. rewrite N, three_given. reflexivity.
Qed.
Lemma torso_described : Forall described_chain torso.
Proof.
  assert (D : forall t, In t (map fst motions) -> Forall described [Lg None (Some (Xyz 0 0 1 t))]).
  { intros t I. constructor; [|constructor]. right. exists 0, 0, 1, t. auto. }
  constructor; [|constructor; [|constructor; [|constructor]]]; (split; [|split]).
  - apply D. cbn. tauto.
  - exists fid. constructor.
  - exists fid. constructor.
  - apply D. cbn. tauto.
  - eexists. apply matrix16.
  - exists fid. constructor.
  - constructor; [|constructor]. left. discriminate.
  - eexists. apply matrix16.
  - exists fid. constructor.
Qed.
Lemma torso_no_self : no_self_merge torso.
Proof. intros c [<-|[<-|[<-|[]]]]; cbn; discriminate. Qed.
Lemma torso_merged_last : merged_last torso.
Proof.
  intros i j c d L Ei Ej. cbn in Ei, Ej. destruct i as [|[|i]].
  - cbn in Ei. injection Ei as <-. cbn. intro H. now elim H.
  - destruct j as [|[|[|j]]]; try lia; discriminate.
  - destruct i; discriminate.
Qed.
Lemma torso_path : ~ on_path torso "right" 2.
Proof.
  assert (N : forall c n, In c torso -> frame_of c n -> n = "right"%string -> tc_name c = "right"%string).
  { intros c n [<-|[<-|[<-|[]]]] [H|[H|(i & g & E & H)]] ->; try reflexivity; try discriminate;
      destruct i as [|[|i]]; cbn in E; try discriminate; injection E as <-; discriminate. }
  assert (T : forall n k, on_path torso n k -> (n = "right"%string -> k <> 2%nat) /\ (n = "trunk"%string -> k <> 2%nat)).
  { intros n k H. induction H as [k c n E Fn|k j c n E P IH Fn].
    - assert (I : In c torso) by (eapply nth_error_In; eauto). split.
      + intros -> ->. cbn in E. injection E as <-. specialize (N _ _ I Fn eq_refl). discriminate.
      + intros -> ->. cbn in E. injection E as <-. destruct Fn as [H|[H|(i & g & Ei & H)]]; try discriminate.
    - destruct j as [|[|[|j]]]; cbn in E; try (destruct j; discriminate); injection E as <-.
      + cbn in P. inversion P as [k' c' n' E' F'|k' j' c' n' E' P' F']; subst.
        * destruct k as [|[|[|k]]]; cbn in E'; try (destruct k; discriminate); injection E' as <-;
            destruct F' as [H|[H|(i & g & Ei & H)]]; try discriminate.
        * destruct j' as [|[|[|j']]]; cbn in E'; try (destruct j'; discriminate); injection E' as <-;
            destruct F' as [H|[H|(i & g & Ei & H)]]; try discriminate.
      + cbn in IH. destruct IH as [_ IH]. split; intros ->; auto.
      + split; intros ->; destruct Fn as [H|[H|(i & g & Ei & H)]]; try discriminate. }
  intro H. exact (proj1 (T _ _ H) eq_refl eq_refl).
Qed.

(** ** The arm of ConfigFacts as a tree *)
Lemma arm2_chains : exists s, open_chains (Ts [] [] []) [Tc "arm" None arm2 true None] = Some s /\ getNumJoints s = 2%nat.
Proof. eexists. split; reflexivity. Qed.
Lemma arm2_tree : exists s lim, tree_open [Tc "arm" None arm2 true None] (Some [-10; -20]) (Some [10; 20]) (Some [1; 1]) None = Some (s, lim) /\ getNumJoints s = 2%nat.
Proof.
  destruct arm2_chains as (s & E & N). exists s. eexists. split; [|exact N].
  unfold tree_open. rewrite E. unfold getNumJoints in N. rewrite N. unfold retrieveTreeLimits, retrieveJointLimits.
  change (negb (Nat.eqb (length [10; 20]) 2 && Nat.eqb (length [-10; -20]) 2)) with false. cbv iota. rewrite arm2_limits. reflexivity.
Qed.
