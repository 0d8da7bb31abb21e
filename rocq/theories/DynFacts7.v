(** The masses of the configuration file, and the controller. *)
From Coq Require Import Reals Lra Lia List Bool Arith ZArith String.
From Verif Require Import Kdl KdlFacts KdlRot KinRep Ft Config ConfigSpec ConfigFacts TreeSpec Dyn AsibotSpec DynSpec DynFacts DynFacts2 DynFacts3 DynFacts4 DynFacts5.
From Verif Require KdlSolver Tree SysSpec SysFacts5.
Import ListNotations.
Open Scope R_scope.
Local Notation length := List.length.
Local Notation S := Datatypes.S.

Definition body_of (l : link_groups * mass_group) : body :=
  match lg_dh (fst l), mg_mass (snd l), mg_cog (snd l), mg_inertia (snd l) with
  | Some _, Some x, Some c, Some i => Bd x (three c) (three i)
  | _, _, _, _ => no_body
  end.
Lemma no_inertia : inertia_of no_body = inertia_zero.
Proof. reflexivity. Qed.
Lemma link_body : forall l m, link_inertia l m = inertia_of (body_of (l, m)).
Proof.
  intros l m. unfold link_inertia, body_of. cbn [fst snd]. destruct (lg_dh l), (mg_mass m), (mg_cog m), (mg_inertia m); rewrite ?no_inertia; reflexivity.
Qed.
Lemma link_bodies : forall ms f n k, Forall described (map f (seq k n)) ->
  link_inertias (map f (seq k n)) ms k = map inertia_of (map (fun i => body_of (f i, ms i)) (seq k n)).
Proof.
  intros ms f. unfold link_inertias. induction n as [|n IH]; intros k D; [reflexivity|]. cbn [seq map length combine List.concat] in *. inversion D as [|? ? D1 D2]; subst.
  destruct (link_segment_spec _ D1) as (b & s & E & _). cbn [fst snd]. rewrite E. cbn [app]. rewrite link_body. cbn [List.concat app]. f_equal. apply IH. exact D2.
Qed.
Lemma cfg_bodies : forall cc ms n, ch_numLinks cc = Some (Z.of_nat n) -> Forall described (map (ch_link cc) (seq 0 n)) ->
  cfg_inertias cc ms = map inertia_of (no_body :: map body_of (map (fun i => (ch_link cc i, ms i)) (seq 0 n)) ++ [no_body]).
Proof.
  intros cc ms n En D. unfold cfg_inertias, ch_links. rewrite En, Nat2Z.id. rewrite link_bodies by exact D. cbn [map]. rewrite map_app, no_inertia. cbn [map]. rewrite no_inertia, !map_map. reflexivity.
Qed.

Lemma weight_body : forall g f l, weighed l -> weight g f (snd l) = - (b_mass (body_of l) * dot g (fapp f (b_cog (body_of l)))).
Proof.
  intros g f [l m] [H|(H1 & (x & y & z & H2) & H3)]; cbn [fst snd] in *; unfold weight, body_of; cbn [fst snd].
  - rewrite H. destruct (lg_dh l); cbn [no_body b_mass]; ring.
  - rewrite H2. destruct (lg_dh l); [|now elim H1]. destruct (mg_mass m); [|cbn [no_body b_mass]; ring]. destruct (mg_inertia m); [|now elim H3]. reflexivity.
Qed.
Definition energies (g : vec) (bs : list body) (fs : list frame) : R := sum (map (fun p => - (b_mass (fst p) * dot g (fapp (snd p) (b_cog (fst p))))) (combine bs fs)).
Lemma links_energy : forall g lms ss, Forall weighed lms ->
  Forall2 (fun g (s : nat * bool * segment) => link_segment g = Some (Some (snd (fst s), snd s)) /\ is_fixed (s_joint (snd s)) = false /\ forall x, link_at g x (segment_pose (snd s) x)) (map fst lms) ss ->
  forall f rest xs, length xs = length lms -> energy_at g f lms xs (energies g (map body_of lms ++ [no_body]) (places f (map snd ss ++ rest) xs)).
Proof.
  intros g lms. induction lms as [|[l m] lms IH]; intros ss W F f rest xs L.
  - destruct xs; [|discriminate]. inversion F; subst. cbn [map app]. assert (E : forall fs, energies g [no_body] fs = 0) by (intros [|a fs]; unfold energies; cbn; ring). rewrite E. constructor.
  - destruct xs as [|x xs]; [discriminate|]. inversion F as [|? s ? ss' (A1 & A2 & A3) F2]; subst. inversion W as [|? ? W1 W2]; subst. cbn [map app places]. rewrite A2. cbn zeta.
    change (energies g (body_of (l, m) :: ?a) (?h :: ?b)) with (- (b_mass (body_of (l, m)) * dot g (fapp h (b_cog (body_of (l, m))))) + energies g a b).
    rewrite <- (weight_body g _ (l, m) W1). cbn [snd fst]. constructor; [apply A3|]. apply IH; auto.
Qed.
Lemma described_all : forall gs, Forall rotary gs -> Forall described gs.
Proof. intros gs H. eapply Forall_impl; [|exact H]. apply rotary_described. Qed.
Lemma file_energy : forall cc ms n ch tools g H0, ch_numLinks cc = Some (Z.of_nat n) -> Forall described (map (ch_link cc) (seq 0 n)) -> cfg_chain cc = Some ch -> matrix_at (ch_H0 cc) H0 ->
  let lms := map (fun i => (ch_link cc i, ms i)) (seq 0 n) in Forall weighed lms ->
  let bs := no_body :: map body_of lms ++ [no_body] in (length bs <= length ch)%nat /\ nr_of_joints ch = n /\
  forall xs, length xs = n -> energy_at g H0 lms xs (potential g bs (ch ++ tools) xs).
Proof.
  intros cc ms n ch tools g H0 En D CC M0 lms W bs. destruct (cfg_chain_spec cc n ch En D CC) as (NR & _).
  unfold cfg_chain, ch_links in CC. rewrite En, Nat2Z.id in CC. destruct (link_segments_spec _ 0 D) as (ss & E1 & E2 & F). rewrite E1 in CC. injection CC as <-.
  assert (Lss : length ss = n). { apply (f_equal (@length nat)) in E2. rewrite map_length, !seq_length, map_length, seq_length in E2. exact E2. }
  split. { unfold bs, lms. cbn [length app]. rewrite !app_length, !map_length, seq_length. cbn [length]. lia. }
  split; [exact NR|]. intros xs L.
  assert (Fm : map fst lms = map (ch_link cc) (seq 0 n)) by (unfold lms; rewrite map_map; reflexivity).
  unfold potential, bs. cbn [app]. rewrite <- app_assoc. cbn [app places]. cbn [is_fixed s_joint mk_segment none_joint axis_joint j_type].
  replace (is_fixed none_joint) with true by reflexivity. cbn zeta. rewrite none_pose, (matrix_frame_spec _ _ M0), fmul_id_l. cbn [combine map]. 
  change (energy_at g H0 lms xs (- (b_mass no_body * dot g (fapp H0 (b_cog no_body))) + energies g (map body_of lms ++ [no_body]) (places H0 (map snd ss ++ mk_segment none_joint (matrix_frame (ch_HN cc)) :: tools) xs))).
  replace (- (b_mass no_body * dot g (fapp H0 (b_cog no_body)))) with 0 by (cbn [no_body b_mass]; ring). rewrite Rplus_0_l.
  apply links_energy; [exact W | rewrite Fm; exact F | unfold lms; rewrite map_length, seq_length; exact L].
Qed.

(** the chain of the file is made of rigid links *)
Lemma mk_tip : forall j f, joint_pose j 0 = fid -> s_tip (mk_segment j f) = f.
Proof. intros j f H. unfold mk_segment. cbn [s_tip]. rewrite H, finv_id, fmul_id_l. reflexivity. Qed.
Lemma mk_sol : forall j f, joint_pose j 0 = fid -> rigid f -> j_type j <> JRotAxis -> sol (mk_segment j f).
Proof. intros j f H R N. split; [rewrite mk_tip by exact H; exact R | intro E; now elim N]. Qed.
Lemma type_not_axis : forall t j, type_joint t = Some j -> j_type j <> JRotAxis.
Proof.
  intros t j H. unfold type_joint in H.
  repeat match type of H with (if ?b then _ else _) = _ => destruct b; [injection H as <-; discriminate|] end. discriminate.
Qed.
Lemma link_sol : forall g b s, link_segment g = Some (Some (b, s)) -> sol s.
Proof.
  intros [[l|] o] b s; unfold link_segment; cbn [lg_dh lg_xyz].
  - intros [= <- <-]. apply mk_sol; [apply axis_pose0; discriminate | apply SysFacts5.dh_rigid | discriminate].
  - destruct o as [l|]; [|discriminate]. destruct (type_joint (xl_type l)) as [j|] eqn:T; [|discriminate]. intros [= <- <-].
    destruct (in_motions _ (type_joint_some _ _ T)) as (m & Mm). destruct (type_joint_spec _ _ Mm) as (j' & T' & _ & P0 & _). assert (j' = j) as -> by congruence.
    apply mk_sol; [exact P0 | apply rigid_trans | eapply type_not_axis; exact T].
Qed.
Lemma links_sol : forall gs i ss, link_segments i gs = Some ss -> solid (map snd ss).
Proof.
  induction gs as [|g gs IH]; intros i ss; cbn [link_segments]; [intros [= <-]; constructor|].
  destruct (link_segment g) as [o|] eqn:G; [|discriminate]. destruct (link_segments _ gs) as [ss'|] eqn:SS; [|discriminate]. intros [= <-].
  destruct o as [[b s]|]; [|eapply IH; exact SS]. cbn [map snd]. constructor; [eapply link_sol; exact G|eapply IH; exact SS].
Qed.
Lemma cfg_solid : forall cc ch H0 HN, cfg_chain cc = Some ch -> matrix_at (ch_H0 cc) H0 -> matrix_at (ch_HN cc) HN -> rigid H0 -> rigid HN -> solid ch.
Proof.
  intros cc ch H0 HN. unfold cfg_chain. destruct (link_segments _ _) as [ss|] eqn:SS; [|discriminate]. intros [= <-] M0 MN R0 RN. apply matrix_frame_spec in M0, MN.
  constructor; [apply mk_sol; [reflexivity | rewrite M0; exact R0 | discriminate]|]. apply Forall_app. split; [eapply links_sol; exact SS|].
  constructor; [apply mk_sol; [reflexivity | rewrite MN; exact RN | discriminate]|constructor].
Qed.
