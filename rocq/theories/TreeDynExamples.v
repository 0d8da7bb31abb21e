(** A trunk with two arms, one of them with a mass; and an arm whose moments of inertia have been left out. *)
From Coq Require Import Reals Lra Lia List Bool Arith ZArith String.
From Verif Require Import Kdl KdlFacts KdlRot KdlRotFacts KinRep KdlSolver Ft Config ConfigSpec ConfigFacts Tree TreeFacts TreeFacts2 TreeFacts3 TreeFacts4 TreeSpec Dyn AsibotSpec DynSpec DynFacts DynFacts2 DynFacts3 DynFacts4 DynFacts5 DynFacts6 DynFacts7 TreeDyn TreeDynSpec TreeDynFacts TreeDynFacts2 TreeDynFacts3.
From Verif Require DynFacts8 DynExamples.
Import ListNotations.
Open Scope R_scope.
Local Notation length := List.length.
Local Notation S := Datatypes.S.

Definition no_group : mass_group := Mg None None None.
Definition arm_mass : string -> nat -> mass_group := fun c _ => if String.eqb c "left" then Mg (Some 3) (Some [- (1); 0; 1 / 2]) (Some [1; 2; 3]) else no_group.
Definition torso_bodies : list body := [no_body; no_body; Bd 3 (V (- (1)) 0 (1 / 2)) (V 1 2 3)].
Definition no_solvers : tree_solvers := Tks (fun _ _ => None) (fun _ _ => None) (fun _ _ _ _ => None).
Definition down : option (option (list R)) := None.
Definition earth : vec := V 0 0 (- (981 / 100)).

Lemma at_x_rigid x f : matrix_at (Some (at_x x)) f -> rigid f.
Proof. intro H. inversion H; subst. apply rigid_id. Qed.
Lemma none_rigid f : matrix_at None f -> rigid f.
Proof. intro H. inversion H; subst. apply rigid_id. Qed.
Lemma torso_firm : Forall firm torso.
Proof.
  constructor; [|constructor; [|constructor; [|constructor]]]; intros f [H|H]; cbn [tc_chain ch_H0 ch_HN] in H; eauto using none_rigid, at_x_rigid.
Qed.
Lemma torso_weighed : Forall weighed (map snd (weights_of torso arm_mass)).
Proof.
  cbn. constructor; [left; reflexivity|]. constructor; [left; reflexivity|]. constructor; [|constructor]. right. cbn. split; [discriminate|]. split; [do 3 eexists; reflexivity|discriminate].
Qed.
Lemma torso_given : Forall2 body_given (map snd (weights_of torso arm_mass)) torso_bodies.
Proof.
  cbn. constructor; [apply no_mass; reflexivity|]. constructor; [apply no_mass; reflexivity|]. constructor; [|constructor]. apply with_mass; try reflexivity. discriminate.
Qed.
Lemma torso_dyn s : exists k, tree_dyn_open no_solvers s torso arm_mass down = Some k.
Proof. eexists. reflexivity. Qed.
Lemma torso_down : gravity_at down earth.
Proof. constructor. Qed.
Theorem torso_example : exists s lim k, tree_open torso (TreeFacts4.three (-10)) (TreeFacts4.three 10) (TreeFacts4.three 1) (Some "online"%string) = Some (s, lim) /\ getNumJoints s = 3%nat /\
  Forall described_chain torso /\ Forall firm torso /\ tree_dyn_open no_solvers s torso arm_mass down = Some k /\ gravity_at down earth /\
  Forall weighed (map snd (weights_of torso arm_mass)) /\ In ("left_link_0"%string, (Lg (Some (Dh 0 1 2 90)) None, arm_mass "left" 0)) (weights_of torso arm_mass).
Proof.
  destruct torso_open as (s & lim & A & B). destruct (torso_dyn s) as (k & K). exists s, lim, k.
  repeat (split; [first [exact A | exact B | exact torso_described | exact torso_firm | exact K | exact torso_down | exact torso_weighed]|]). right. right. left. reflexivity.
Qed.
Definition spins_js : list (R -> R) := [fun s => s; fun _ => 0; fun s => s * s / 2].
Definition spins_vs : list (R -> R) := [fun _ => 1; fun _ => 0; fun s => s].
Lemma deg_pi : degToRad (180 / PI) = 1.
Proof. unfold degToRad. pose proof PI_neq0. field. assumption. Qed.
Lemma deg_0 : degToRad 0 = 0.
Proof. unfold degToRad. ring. Qed.
Lemma spins_passes : passes spins_js spins_vs 0 (map degToRad (firstn 3 [0; 0; 0])) (map degToRad (firstn 3 [180 / PI; 0; 0])) (map degToRad (firstn 3 [0; 0; 180 / PI])).
Proof.
  cbn [firstn map]. rewrite deg_pi, deg_0. split; [|split; [|split]].
  - unfold spins_js, spins_vs. constructor; [|constructor; [|constructor; [|constructor]]]; intro s.
    + apply derivable_pt_lim_id.
    + apply derivable_pt_lim_const.
    + eapply dl_eq; [eapply dl_ext; [|apply dl_mult; [apply derivable_pt_lim_id|apply (derivable_pt_lim_scal id (1 / 2) s 1), derivable_pt_lim_id]]|].
      * intro z. unfold mult_real_fct, id. field.
      * unfold mult_real_fct, id. field.
  - unfold spins_vs. constructor; [|constructor; [|constructor; [|constructor]]]; [apply derivable_pt_lim_const | apply derivable_pt_lim_const | apply derivable_pt_lim_id].
  - unfold spins_js. cbn [map]. repeat f_equal. field.
  - reflexivity.
Qed.
Theorem torso_moves : exists s lim k ts, tree_open torso (TreeFacts4.three (-10)) (TreeFacts4.three 10) (TreeFacts4.three 1) (Some "online"%string) = Some (s, lim) /\ getNumJoints s = 3%nat /\
  Forall described_chain torso /\ Forall firm torso /\ tree_dyn_open no_solvers s torso arm_mass down = Some k /\ gravity_at down earth /\
  no_self_merge torso /\ Forall2 body_given (map snd (weights_of torso arm_mass)) torso_bodies /\
  t_invDyn k s [0; 0; 0] [180 / PI; 0; 0] [0; 0; 180 / PI] [1; 2; 3; 4; 5; 6] TCP_FRAME = TTrue ts /\
  passes spins_js spins_vs 0 (map degToRad (firstn 3 [0; 0; 0])) (map degToRad (firstn 3 [180 / PI; 0; 0])) (map degToRad (firstn 3 [0; 0; 180 / PI])).
Proof.
  destruct torso_open as (s & lim & A & B). destruct (torso_dyn s) as (k & K).
  destruct (answers_tree torso arm_mass s _ _ _ _ lim no_solvers k down earth A torso_described K torso_down [0; 0; 0] [180 / PI; 0; 0] [0; 0; 180 / PI] [1; 2; 3; 4; 5; 6] TCP_FRAME torso_no_self) as (ts & E); try (rewrite B; cbn; lia); [cbn; lia|right; reflexivity|].
  exists s, lim, k, ts.
  repeat (split; [first [exact A | exact B | exact torso_described | exact torso_firm | exact K | exact torso_down | exact torso_no_self | exact torso_given | exact E]|]). exact spins_passes.
Qed.

(** ** A mass whose moments of inertia have been left out *)
Definition one_arm : list tree_chain := [Tc "arm" None DynExamples.bar_file true None].
Lemma arm_tree : exists s lim, tree_open one_arm (Some [-10]) (Some [10]) (Some [1]) (Some "online"%string) = Some (s, lim) /\ getNumJoints s = 1%nat.
Proof.
  assert (C : exists s, open_chains (Ts [] [] []) one_arm = Some s /\ getNumJoints s = 1%nat) by (eexists; split; reflexivity).
  destruct C as (s & E & N). exists s. eexists. split; [|exact N]. unfold tree_open. rewrite E. unfold getNumJoints in N. rewrite N.
  assert (L : retrieveTreeLimits 1 (Some [-10]) (Some [10]) (Some [1]) = Some (map degToRad [-10], map degToRad [10], map degToRad [1])).
  { unfold retrieveTreeLimits, retrieveJointLimits. change (negb (Nat.eqb (length [10]) 1 && Nat.eqb (length [-10]) 1)) with false. cbv iota.
    assert (O : limits_ok [-10] [10] = true). { cbn. pose proof PI_RGT_0. unfold degToRad. rewrite !(proj2 (Rltb_false _ _)) by nra. reflexivity. }
    now rewrite O. }
  rewrite L. reflexivity.
Qed.
Definition arm_bare : string -> nat -> mass_group := fun _ _ => DynExamples.bare_mass.
Lemma arm_described : Forall described_chain one_arm.
Proof.
  constructor; [|constructor]. split; [|split]; [|exists fid; constructor|eexists; apply matrix16]. constructor; [|constructor]. left. discriminate.
Qed.
Lemma arm_firm : Forall firm one_arm.
Proof. constructor; [|constructor]. intros f [H|H]; cbn [tc_chain ch_H0 ch_HN DynExamples.bar_file] in H; [apply none_rigid, H | apply (at_x_rigid (1 / 2)), H]. Qed.
Lemma arm_link f x : frame_at one_arm x "arm_link_0" f -> f = F (RotZ (x 0%nat)) (V (cos (x 0%nat) / 2) (sin (x 0%nat) / 2) 0).
Proof.
  intro A. destruct arm_tree as (s & lim & Ho & N).
  assert (E : frame_at one_arm x "arm_link_0" (fmul fid (fmul fid (fmul (F (RotZ (x 0%nat)) (V (cos (x 0%nat) / 2) (sin (x 0%nat) / 2) 0)) fid)))).
  { apply (at_link one_arm x 0 (Tc "arm" None DynExamples.bar_file true None) fid fid 0 DynExamples.bar_link); [reflexivity|constructor|constructor|reflexivity|].
    change (firstn 1 (links_of _)) with [DynExamples.bar_link]. change (coordinates _ _ _ _) with [x 0%nat]. constructor; [apply DynExamples.bar_link_at|constructor]. }
  rewrite (pose_unique _ _ _ _ _ _ _ Ho arm_described x _ _ _ A E), !fmul_id_l, fmul_id_r. reflexivity.
Qed.
Lemma arm_energy x e : tree_energy (V 0 (- (10)) 0) one_arm arm_bare x e -> e = 5 * sin (x 0%nat).
Proof.
  intros (fs & F & ->). change (weights_of one_arm arm_bare) with [("arm_link_0"%string, (DynExamples.bar_link, DynExamples.bare_mass))] in *.
  inversion F as [|? f ? fs' A B]; subst. inversion B; subst. clear F B. cbn [combine map fst snd] in *. rewrite (arm_link _ _ A). unfold sum, weight. cbn [fold_right mg_mass mg_cog DynExamples.bare_mass].
  cbv -[Rplus Rmult Rminus Ropp Rinv Rdiv IZR sin cos]. field.
Qed.
Lemma none_energy g cs x e : tree_energy g cs (fun _ _ => no_group) x e -> e = 0.
Proof.
  intros (fs & F & ->). assert (W : forall l, In l (weights_of cs (fun _ _ => no_group)) -> snd (snd l) = no_group).
  { unfold weights_of. intros l I. apply in_concat in I. destruct I as (ls & I & J). apply in_map_iff in I. destruct I as (c & <- & _). apply in_map_iff in J. destruct J as (p & <- & _). reflexivity. }
  revert fs F W. induction (weights_of cs (fun _ _ => no_group)) as [|l ls IH]; intros fs F W; inversion F as [|? f ? fs' A B]; subst; [reflexivity|].
  cbn [combine map fst snd]. unfold sum in *. cbn [fold_right]. rewrite IH by (auto; intros; apply W; now right). rewrite W by now left. unfold weight, no_group. cbn [mg_mass]. ring.
Qed.
Theorem arm_refuted : exists cs mins maxs vels ik s lim k0 k ms gv g q ts, tree_open cs mins maxs vels ik = Some (s, lim) /\ Forall described_chain cs /\ Forall firm cs /\
  tree_dyn_open k0 s cs ms gv = Some k /\ gravity_at gv g /\
  Forall (fun l => lg_dh (fst l) <> None /\ exists m x y z, mg_mass (snd l) = Some m /\ mg_cog (snd l) = Some [x; y; z]) (map snd (weights_of cs ms)) /\
  length q = getNumJoints s /\ t_gravity k s q = TTrue ts /\ ~ tree_holds g cs ms (map (fun a => a * PI / 180) q) ts.
Proof.
  destruct arm_tree as (s & lim & Ho & N).
  assert (K : exists k, tree_dyn_open no_solvers s one_arm arm_bare DynExamples.sideways = Some k) by (eexists; reflexivity). destruct K as (k & K).
  assert (G : gravity_at DynExamples.sideways (V 0 (- (10)) 0)) by constructor.
  assert (K' : tree_dyn_open no_solvers s one_arm (fun _ _ => no_group) DynExamples.sideways = Some k) by (rewrite <- K; reflexivity).
  destruct (gravity_tree one_arm (fun _ _ => no_group) s _ _ _ _ lim no_solvers k DynExamples.sideways (V 0 (- (10)) 0) Ho arm_described arm_firm K' G [0]) as (ts & E & L & H).
  - rewrite N. cbn. lia.
  - constructor; [|constructor]. left. reflexivity.
  - rewrite N in L, H. cbn [firstn] in L, H.
    exists one_arm, (Some [-10]), (Some [10]), (Some [1]), (Some "online"%string), s, lim, no_solvers, k, arm_bare, DynExamples.sideways, (V 0 (- (10)) 0), [0], ts.
    do 5 (split; [first [exact Ho | exact arm_described | exact arm_firm | exact K | exact G]|]).
    split; [constructor; [|constructor]; split; [discriminate|]; do 4 eexists; split; reflexivity|]. split; [rewrite N; reflexivity|]. split; [exact E|].
    intros (_ & T). destruct (T [1] eq_refl) as (e & A & B). destruct (H [1] eq_refl) as (e' & A' & B').
    assert (Z : power ts [1] = 0).
    { eapply uniqueness_limite; [exact B'|]. apply dl_ext with (fun _ => 0); [intro z; symmetry; eapply none_energy, A'|]. apply dl_const. }
    assert (X : forall t, e t = 5 * sin t). { intro t. specialize (A t). apply arm_energy in A. rewrite A. do 2 f_equal. cbn. field. }
    assert (D2 : derivable_pt_lim e 0 (5 * cos 0)).
    { apply dl_ext with (fun t => 5 * sin t); [intro z; rewrite X; reflexivity|]. apply (derivable_pt_lim_scal sin 5 0 (cos 0)). apply derivable_pt_lim_sin. }
    pose proof (uniqueness_limite _ _ _ _ B D2) as U. rewrite cos_0, Z in U. lra.
Qed.
