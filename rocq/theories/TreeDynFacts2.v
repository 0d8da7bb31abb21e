(** The dynamics of the robot that the configuration of the tree solver describes. *)
From Coq Require Import Reals Lra Lia List Bool Arith ZArith String DecimalString.
From Verif Require Import Kdl KdlFacts KdlRot KinRep KdlSolver Ft Config ConfigSpec ConfigFacts Tree TreeFacts TreeFacts2 TreeFacts3 TreeSpec Dyn AsibotSpec DynSpec DynFacts DynFacts2 DynFacts3 DynFacts4 DynFacts5 DynFacts6 DynFacts7 TreeDyn TreeDynSpec TreeDynFacts.
From Verif Require TreeFacts5.
Import ListNotations.
Open Scope R_scope.
Local Notation length := List.length.
Local Notation concat := List.concat.
Local Notation S := Datatypes.S.

(** ** The tree of the file *)
Definition names_of (c : tree_chain) : list string :=
  (tc_name c ++ "_H0")%string :: map (fun p => link_name c (fst p) (snd p)) (combine (seq 0 (length (links_of c))) (links_of c)) ++ [tc_name c].
Lemma add_chain_sound : forall segs t hook t', sound t -> Forall (fun p => sol (snd p)) segs -> add_chain t segs hook = Some t' ->
  sound t' /\ map nd_name t' = rev (map fst segs) ++ map nd_name t.
Proof.
  induction segs as [|[name s] segs IH]; intros t hook t' H F E; cbn [add_chain] in E; [injection E as <-; auto|].
  inversion F as [|? ? F1 F2]; subst. destruct (add_segment t name s hook) as [t1|] eqn:E1; [|discriminate].
  destruct (add_segment_inv _ _ _ _ _ E1) as (A & B & ->).
  assert (S0 : sound (Nd name s hook (if is_fixed (s_joint s) then 0%nat else tree_joints t) :: t)).
  { constructor; cbn [nd_parent nd_name nd_seg nd_q]; auto. intros ->. reflexivity. }
  destruct (IH _ _ _ S0 F2 E) as (S1 & N1).
  split; [exact S1|]. rewrite N1. cbn [map nd_name fst rev]. rewrite <- app_assoc. reflexivity.
Qed.
Lemma seg_link c i g b s : link_segment g = Some (Some (b, s)) -> segment_name (tc_name c) i b = link_name c i g.
Proof.
  unfold link_segment, segment_name, link_name. destruct (lg_dh g); [intros [= <- _]; reflexivity|]. destruct (lg_xyz g); [|discriminate].
  destruct (type_joint _); [|discriminate]. intros [= <- _]. reflexivity.
Qed.
Lemma segs_names c : forall gs ss k, map (fun x : nat * bool * segment => fst (fst x)) ss = seq k (length gs) ->
  Forall2 (fun g (s : nat * bool * segment) => link_segment g = Some (Some (snd (fst s), snd s)) /\ is_fixed (s_joint (snd s)) = false /\ forall x, link_at g x (segment_pose (snd s) x)) gs ss ->
  map (fun x => segment_name (tc_name c) (fst (fst x)) (snd (fst x))) ss = map (fun p => link_name c (fst p) (snd p)) (combine (seq k (length gs)) gs).
Proof.
  induction gs as [|g gs IH]; intros ss k E F; inversion F as [|? s ? ss' (A & _) F2]; subst; [reflexivity|]. cbn [map length seq combine fst snd] in *. injection E as E1 E.
  rewrite E1, (seg_link c k g _ _ A). f_equal. apply IH; assumption.
Qed.
Lemma named_sound c segs : described_chain c -> firm c -> named_chain c = Some segs -> Forall (fun p => sol (snd p)) segs /\ map fst segs = names_of c.
Proof.
  intros (D & (h0 & M0) & (hn & MN)) R E. unfold named_chain in E. rewrite ch_links_of in E. destruct (link_segments_spec _ 0 D) as (ss & Es & Ei & F2). rewrite Es in E. injection E as <-.
  pose proof (matrix_frame_spec _ _ M0) as P0. pose proof (matrix_frame_spec _ _ MN) as PN. split.
  - constructor; [cbn [snd]; apply mk_sol; [reflexivity | rewrite P0; apply R; auto | discriminate]|]. apply Forall_app. split.
    + pose proof (links_sol _ _ _ Es) as LS. apply Forall_forall. intros p I. apply in_map_iff in I. destruct I as (x & <- & I). cbn [snd]. unfold solid in LS. rewrite Forall_forall in LS. apply LS. apply in_map, I.
    + constructor; [|constructor]. cbn [snd]. apply mk_sol; [reflexivity | rewrite PN; apply R; auto | discriminate].
  - cbn [app map fst]. unfold names_of. f_equal. rewrite map_app, map_map. cbn [map fst]. f_equal. apply segs_names; assumption.
Qed.
Lemma chains_sound : forall cs s s', sound (ts_tree s) -> Forall described_chain cs -> Forall firm cs -> open_chains s cs = Some s' ->
  sound (ts_tree s') /\ map nd_name (ts_tree s') = rev (concat (map names_of cs)) ++ map nd_name (ts_tree s).
Proof.
  induction cs as [|c cs IH]; intros s s' H D R E; cbn [open_chains] in E; [injection E as <-; auto|].
  inversion D as [|? ? D1 D2]; inversion R as [|? ? R1 R2]; subst. destruct (open_chain s c) as [s1|] eqn:E1; [|discriminate].
  destruct (open_chain_inv _ _ _ E1) as (segs & En & Ea & _). destruct (named_sound _ _ D1 R1 En) as (F & N).
  destruct (add_chain_sound _ _ _ _ H F Ea) as (S1 & N1). destruct (IH _ _ S1 D2 R2 E) as (S2 & N2). split; [exact S2|].
  rewrite N2, N1, N. cbn [map concat]. rewrite rev_app_distr, app_assoc. reflexivity.
Qed.
Lemma open_sound cs mins maxs vels ik s lim : tree_open cs mins maxs vels ik = Some (s, lim) -> Forall described_chain cs -> Forall firm cs ->
  sound (ts_tree s) /\ map nd_name (ts_tree s) = rev (concat (map names_of cs)).
Proof.
  intros Ho D R. destruct (tree_open_inv _ _ _ _ _ _ _ Ho) as (E & _). destruct (chains_sound cs (Ts [] [] []) s (sound_nil) D R E) as (A & B). split; [exact A|].
  rewrite B. cbn. apply app_nil_r.
Qed.

(** ** The bodies of the file *)
Lemma NoDup_app_inv A (a b : list A) : NoDup (a ++ b) -> NoDup a /\ NoDup b /\ forall x, In x a -> ~ In x b.
Proof.
  induction a as [|x a IH]; intro N; cbn in *; [repeat split; auto; constructor|]. inversion N as [|? ? N1 N2]; subst. destruct (IH N2) as (P & Q & D). split; [|split; [exact Q|]].
  - constructor; [|exact P]. intro I. apply N1. apply in_app_iff. auto.
  - intros y [<-|I] J; [apply N1, in_app_iff; auto | exact (D y I J)].
Qed.
Lemma NoDup_app_intro A (a b : list A) : NoDup a -> NoDup b -> (forall x, In x a -> ~ In x b) -> NoDup (a ++ b).
Proof.
  induction a as [|x a IH]; intros P Q D; cbn; [exact Q|]. inversion P as [|? ? P1 P2]; subst. constructor; [|apply IH; auto; intros y I; apply D; now right].
  intro I. apply in_app_iff in I. destruct I as [I|I]; [contradiction|]. apply (D x); [now left|exact I].
Qed.
Lemma weights_cons c cs ms : map fst (weights_of (c :: cs) ms) = map (fun p => link_name c (fst p) (snd p)) (combine (seq 0 (length (links_of c))) (links_of c)) ++ map fst (weights_of cs ms).
Proof. unfold weights_of. cbn [map concat]. rewrite map_app, map_map. reflexivity. Qed.
Lemma weights_names ms : forall cs n, In n (map fst (weights_of cs ms)) -> In n (concat (map names_of cs)).
Proof.
  induction cs as [|c cs IH]; intros n I; [exact I|]. rewrite weights_cons in I. cbn [map concat]. apply in_app_iff. apply in_app_iff in I. destruct I as [I|I]; [left|right; auto].
  unfold names_of. right. apply in_app_iff. left. exact I.
Qed.
Lemma weights_nodup ms : forall cs, NoDup (concat (map names_of cs)) -> NoDup (map fst (weights_of cs ms)).
Proof.
  induction cs as [|c cs IH]; intro N; [constructor|]. cbn [map concat] in N. destruct (NoDup_app_inv _ _ _ N) as (P & Q & D). rewrite weights_cons. apply NoDup_app_intro.
  - unfold names_of in P. inversion P as [|? ? _ P2]; subst. apply (NoDup_app_inv _ _ _ P2).
  - apply IH, Q.
  - intros x I J. apply (D x); [unfold names_of; right; apply in_app_iff; auto | eapply weights_names, J].
Qed.
Lemma combine_map_seq A (f : nat -> A) k n : combine (seq k n) (map f (seq k n)) = map (fun i => (i, f i)) (seq k n).
Proof. revert k. induction n as [|n IH]; intro k; cbn; [reflexivity|]. f_equal. apply IH. Qed.
Lemma inertias_weights cs ms : tree_inertias cs ms = map (fun l => (fst l, link_inertia (fst (snd l)) (snd (snd l)))) (weights_of cs ms).
Proof.
  unfold tree_inertias, weights_of. rewrite concat_map, map_map. f_equal. apply map_ext. intro c. unfold chain_inertias. rewrite ch_links_of, map_map. cbn [fst snd].
  unfold links_of at 3. set (n := match ch_numLinks (tc_chain c) with Some n => Z.to_nat n | None => 0%nat end).
  assert (L : length (links_of c) = n) by (unfold links_of; rewrite map_length, seq_length; reflexivity). rewrite L, combine_map_seq, map_map. apply map_ext. intro i. cbn [fst snd]. f_equal.
  unfold segment_name, link_name. destruct (lg_dh _); reflexivity.
Qed.
Lemma lookup_map A B (h : A -> B) (l : list (string * A)) n : lookup (map (fun p => (fst p, h (snd p))) l) n = option_map h (lookup l n).
Proof. induction l as [|[k a] l IH]; [reflexivity|]. cbn. destruct (String.eqb k n); [reflexivity|exact IH]. Qed.

(** ** Sums over some of the names *)
Lemma sum_zero (h : string -> R) : forall l, (forall x, In x l -> h x = 0) -> sum (map h l) = 0.
Proof. induction l as [|x l IH]; intro H; [reflexivity|]. unfold sum in *. cbn. rewrite H by now left. rewrite IH; [ring|]. intros; apply H; now right. Qed.
Lemma sum_some (h : string -> R) : forall l' l, NoDup l -> NoDup l' -> incl l' l -> (forall x, In x l -> ~ In x l' -> h x = 0) -> sum (map h l) = sum (map h l').
Proof.
  induction l' as [|x l' IH]; intros l N N' I Z.
  - apply sum_zero. intros x J. apply Z; [exact J|tauto].
  - inversion N' as [|? ? N1 N2]; subst. destruct (in_split x l (I x (or_introl eq_refl))) as (a & b & ->). pose proof (NoDup_remove_1 _ _ _ N) as Nab. pose proof (NoDup_remove_2 _ _ _ N) as Nx.
    rewrite map_app, sum_app. cbn [map]. unfold sum at 2 3. cbn [fold_right]. change (fold_right Rplus 0 ?l) with (sum l). rewrite <- (IH (a ++ b)); auto.
    + rewrite map_app, sum_app. ring.
    + intros y J. assert (In y (a ++ x :: b)) as K by (apply I; now right). apply in_app_iff in K. apply in_app_iff. cbn in K. destruct K as [K|[<-|K]]; auto. contradiction.
    + intros y J K. apply Z; [apply in_app_iff; apply in_app_iff in J; cbn; tauto|]. intros [<-|L]; [apply Nx; exact J|contradiction].
Qed.
Lemma tdot_none d : tdot d wrench_zero = 0.
Proof. unfold tdot, wrench_zero. cbn [w_force w_torque]. rewrite !dot_zero_r. ring. Qed.

Lemma mul_none a : rb_mul inertia_zero a = wrench_zero.
Proof.
  assert (E : inertia_zero = Rb 0 vzero (M 0 0 0 0 0 0 0 0 0)).
  { unfold inertia_zero, mk_inertia, vscale, vzero, dot. cbn [vx vy vz]. f_equal; f_equal; ring. }
  rewrite E. destruct a as [[a1 a2 a3] [b1 b2 b3]]. unfold rb_mul, wrench_zero, vzero, vscale, cross, vsub, vadd, mv. cbn [rb_m rb_h rb_i t_vel t_rot vx vy vz m00 m01 m02 m10 m11 m12 m20 m21 m22].
  f_equal; f_equal; ring.
Qed.
Lemma push_none d a v : tdot d (push inertia_zero a v) = 0.
Proof.
  unfold push. rewrite !mul_none. unfold twcross, wrench_zero, wadd. cbn [w_force w_torque]. destruct d as [[d1 d2 d3] [e1 e2 e3]], v as [[v1 v2 v3] [x1 x2 x3]].
  unfold tdot, dot, cross, vadd, vzero. cbn [t_vel t_rot w_force w_torque vx vy vz]. ring.
Qed.

(** ** The names and the frames *)
Section File.
Variables (cs : list tree_chain) (ms : string -> nat -> mass_group) (s : tsolver) (mins maxs vels : option (list R)) (ik : option string) (lim : list R * list R * list R).
Hypothesis Ho : tree_open cs mins maxs vels ik = Some (s, lim).
Hypothesis D : Forall described_chain cs.
Hypothesis Fm : Forall firm cs.
Let t := ts_tree s.

Lemma file_frame n q : In n (map nd_name t) -> frame_at cs (fun j => nth j q 0) n (tpose t q n).
Proof.
  intro I. destruct (g_poses _ _ _ (open_good _ _ _ _ _ _ _ Ho D q) n) as (f & A & B); [apply has_names; auto|].
  unfold t. rewrite (tpose_fk _ _ _ _ B). exact A.
Qed.
Lemma file_pose n q f : frame_at cs (fun j => nth j q 0) n f -> f = tpose t q n.
Proof. intro A. symmetry. apply tpose_fk. apply (g_unique _ _ _ (open_good _ _ _ _ _ _ _ Ho D q) n f A). Qed.
Lemma names_tree n : In n (concat (map names_of cs)) <-> In n (map nd_name t).
Proof. unfold t. rewrite (proj2 (open_sound _ _ _ _ _ _ _ Ho D Fm)). apply in_rev. Qed.
Lemma names_cs : NoDup (concat (map names_of cs)).
Proof.
  destruct (open_sound _ _ _ _ _ _ _ Ho D Fm) as (A & B). pose proof (names_nodup _ A) as N. rewrite B in N. apply NoDup_rev in N. rewrite rev_involutive in N. exact N.
Qed.
Lemma endpoint_name n : In n (map tc_name (tcp_chains cs)) -> In n (map nd_name t).
Proof.
  intro I. apply in_map_iff in I. destruct I as (c & <- & I). apply filter_In in I. destruct I as [I _]. apply names_tree. apply in_concat. exists (names_of c).
  split; [apply in_map, I|]. unfold names_of. right. apply in_app_iff. right. now left.
Qed.
Lemma endpoints_nodup : NoDup (map tc_name (tcp_chains cs)).
Proof. apply filter_NoDup, (g_names _ _ _ (open_good _ _ _ _ _ _ _ Ho D [])). Qed.
Lemma all_joints : tree_joints t = list_sum (map (fun c => length (links_of c)) cs).
Proof. destruct (tree_forward _ _ _ _ _ _ _ Ho D) as (A & _). exact A. Qed.

(** what the groups give, as bodies *)
Definition file_body (l : link_groups * mass_group) : body := body_of l.
Lemma file_inertia l : In l (weights_of cs ms) -> lookup (tree_inertias cs ms) (fst l) = Some (inertia_of (body_of (snd l))).
Proof.
  intro I. apply lookup_nodup.
  - rewrite inertias_weights, map_map. cbn [fst]. apply weights_nodup, names_cs.
  - rewrite inertias_weights. apply in_map_iff. exists l. split; [|exact I]. destruct l as (n & g & m). cbn [fst snd]. rewrite link_body. reflexivity.
Qed.
Lemma file_no_inertia n : ~ In n (map fst (weights_of cs ms)) -> lookup (tree_inertias cs ms) n = None.
Proof. intro I. apply lookup_none. rewrite inertias_weights, map_map. exact I. Qed.

(** ** d'Alembert *)
Theorem file_work g q qd qdd fe ts u : tree_rne g (tree_inertias cs ms) t q qd qdd fe = Some ts -> NoDup (map fst fe) -> incl (map fst fe) (map nd_name t) -> length u = tree_joints t ->
  power ts u + sum (map (fun p => tdot (ttrack t q u (fst p)) (snd p)) fe) =
  sum (map (fun l => tdot (ttrack t q u (fst l)) (push (inertia_of (body_of (snd l))) (heavy g (fM (tpose t q (fst l))) (taccel twist_zero t q qd qdd (fst l))) (ttrack t q qd (fst l)))) (weights_of cs ms)).
Proof.
  intros E N I L. destruct (open_sound _ _ _ _ _ _ _ Ho D Fm) as (So & _). fold t in So. destruct (rne_power _ _ _ _ _ _ _ _ So E) as (_ & _ & _ & _ & P). specialize (P u L).
  pose proof (names_nodup _ So) as Nt.
  set (h1 := fun n => tdot (ttrack t q u n) (or_default (lookup fe n) wrench_zero)) in *.
  set (h2 := fun n => tdot (ttrack t q u n) (push (or_default (lookup (tree_inertias cs ms) n) inertia_zero) (heavy g (fM (tpose t q n)) (taccel twist_zero t q qd qdd n)) (ttrack t q qd n))) in *.
  assert (P1 : sum (map (fun n => h1 (nd_name n)) t) = sum (map h1 (map nd_name t))) by (rewrite map_map; reflexivity).
  assert (P2 : sum (map (fun n => h2 (nd_name n)) t) = sum (map h2 (map nd_name t))) by (rewrite map_map; reflexivity).
  change (power ts u + sum (map (fun n => h1 (nd_name n)) t) = sum (map (fun n => h2 (nd_name n)) t)) in P. rewrite P1, P2 in P.
  rewrite (sum_some h1 (map fst fe)) in P; auto.
  2:{ intros x _ J. unfold h1. rewrite lookup_none by exact J. apply tdot_none. }
  rewrite (sum_some h2 (map fst (weights_of cs ms))) in P; auto.
  2:{ apply weights_nodup, names_cs. }
  2:{ intros x J. apply names_tree, (weights_names ms), J. }
  2:{ intros x _ J. unfold h2. rewrite file_no_inertia by exact J. apply push_none. }
  rewrite !map_map in P.
  rewrite (sum_ext _ (fun p => tdot (ttrack t q u (fst p)) (snd p)) (fun p => h1 (fst p)) fe).
  2:{ intros [n w] J. unfold h1. cbn [fst snd]. rewrite (lookup_nodup _ _ _ _ N J). reflexivity. }
  rewrite P. apply sum_ext. intros l J. unfold h2. rewrite file_inertia by exact J. reflexivity.
Qed.
Lemma moving_poses js vs w x n : Forall2 (fun j v => forall s, derivable_pt_lim j s (v s)) js vs -> Forall2 (fun v r => derivable_pt_lim v x r) vs w ->
  forall g b d, resists g b (fun r => tpose t (at_time js r) n) x (trot (fM (tpose t (at_time js x) n)) d)
    (tdot d (push (inertia_of b) (heavy g (fM (tpose t (at_time js x) n)) (taccel twist_zero t (at_time js x) (at_time vs x) w n)) (ttrack t (at_time js x) (at_time vs x) n))).
Proof.
  intros F FF g b d. destruct (open_sound _ _ _ _ _ _ _ Ho D Fm) as (So & _). fold t in So.
  apply (body_resists g b (fun r => tpose t (at_time js r) n) (fun r => ttrack t (at_time js r) (at_time vs r) n)).
  - intro r. apply tpose_rigid, So.
  - intro r. apply (tpose_flies t js (at_time vs r) r So). apply F2_at, F.
  - apply ttrack_rate; auto. clear - F. induction F; constructor; auto.
Qed.
Lemma virtual_poses q u n : length u = length q -> velocity_of (fun r => tpose t (moving q u r) n) 0 (trot (fM (tpose t q n)) (ttrack t q u n)).
Proof.
  intro L. destruct (open_sound _ _ _ _ _ _ _ Ho D Fm) as (So & _). fold t in So.
  pose proof (tpose_flies t (line q u) u 0 So (line_rate q u 0 L) n) as F. unfold flies in F. rewrite line_start in F by exact L.
  eapply velocity_ext; [|exact F]. intro r. cbv beta. rewrite moving_line. reflexivity.
Qed.
End File.
