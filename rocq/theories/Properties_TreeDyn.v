(** The dynamics of the tree solver. *)
From Coq Require Import Reals List Bool String.
From Verif Require Import Kdl KdlRot KinRep KdlSolver Ft Config ConfigSpec Tree TreeFacts4 TreeSpec Dyn DynSpec TreeDyn TreeDynSpec.
From Verif Require TreeDynFacts3 TreeDynExamples.
Import ListNotations.
Open Scope R_scope.
Local Notation length := List.length.
Import TreeDynExamples.

(** C142: asked for the torques against gravity, the tree solver gives those that hold the robot that its file describes. *)
Theorem C142_gravity : forall cs ms s mins maxs vels ik lim k0 k gv g, tree_open cs mins maxs vels ik = Some (s, lim) ->
  Forall described_chain cs -> Forall firm cs -> tree_dyn_open k0 s cs ms gv = Some k -> gravity_at gv g ->
  forall q, (getNumJoints s <= length q)%nat -> Forall weighed (map snd (weights_of cs ms)) ->
  exists ts, t_gravity k s q = TTrue ts /\ tree_holds g cs ms (map (fun a => a * PI / 180) (firstn (getNumJoints s) q)) ts.
Proof. exact TreeDynFacts3.gravity_tree. Qed.
Print Assumptions C142_gravity.
Example C142_gravity_example : exists s lim k, tree_open torso (TreeFacts4.three (-10)) (TreeFacts4.three 10) (TreeFacts4.three 1) (Some "online"%string) = Some (s, lim) /\ getNumJoints s = 3%nat /\
  Forall described_chain torso /\ Forall firm torso /\ tree_dyn_open no_solvers s torso arm_mass down = Some k /\ gravity_at down earth /\
  Forall weighed (map snd (weights_of torso arm_mass)) /\ In ("left_link_0"%string, (Lg (Some (Dh 0 1 2 90)) None, arm_mass "left" 0)) (weights_of torso arm_mass).
Proof. exact torso_example. Qed.

(** C142: not so if the moments of inertia of a link with a mass are left out: the mass is then ignored. *)
Theorem C142_weight_refuted : exists cs mins maxs vels ik s lim k0 k ms gv g q ts, tree_open cs mins maxs vels ik = Some (s, lim) /\ Forall described_chain cs /\ Forall firm cs /\
  tree_dyn_open k0 s cs ms gv = Some k /\ gravity_at gv g /\
  Forall (fun l => lg_dh (fst l) <> None /\ exists m x y z, mg_mass (snd l) = Some m /\ mg_cog (snd l) = Some [x; y; z]) (map snd (weights_of cs ms)) /\
  length q = getNumJoints s /\ t_gravity k s q = TTrue ts /\ ~ tree_holds g cs ms (map (fun a => a * PI / 180) q) ts.
Proof. exact arm_refuted. Qed.
Print Assumptions C142_weight_refuted.

(** C143: in motion the torques, together with the forces on the TCPs, drive the bodies as they move; merged TCPs each get the force given once. *)
Theorem C143_motion : forall cs ms s mins maxs vels ik lim k0 k gv g, tree_open cs mins maxs vels ik = Some (s, lim) ->
  Forall described_chain cs -> Forall firm cs -> tree_dyn_open k0 s cs ms gv = Some k -> gravity_at gv g ->
  forall q qd qdd ftip fr ts bs, no_self_merge cs -> Forall2 body_given (map snd (weights_of cs ms)) bs -> t_invDyn k s q qd qdd ftip fr = TTrue ts ->
  let rad l := map degToRad (firstn (getNumJoints s) l) in
  length ts = getNumJoints s /\ exists m w, assigned vectorToWrench cs ftip m /\
    match fr with TCP_FRAME => rebased (fun f => wrot (fM f)) cs (fun j => degToRad (nth j q 0)) m w | _ => w = m end /\
    forall js vs x, passes js vs x (rad q) (rad qd) (rad qdd) -> tree_drives g cs (combine (map fst (weights_of cs ms)) bs) js x w ts.
Proof. exact TreeDynFacts3.motion_tree. Qed.
Print Assumptions C143_motion.
Example C143_motion_example : exists s lim k ts, tree_open torso (TreeFacts4.three (-10)) (TreeFacts4.three 10) (TreeFacts4.three 1) (Some "online"%string) = Some (s, lim) /\ getNumJoints s = 3%nat /\
  Forall described_chain torso /\ Forall firm torso /\ tree_dyn_open no_solvers s torso arm_mass down = Some k /\ gravity_at down earth /\
  no_self_merge torso /\ Forall2 body_given (map snd (weights_of torso arm_mass)) torso_bodies /\
  t_invDyn k s [0; 0; 0] [180 / PI; 0; 0] [0; 0; 180 / PI] [1; 2; 3; 4; 5; 6] TCP_FRAME = TTrue ts /\
  passes spins_js spins_vs 0 (map degToRad (firstn 3 [0; 0; 0])) (map degToRad (firstn 3 [180 / PI; 0; 0])) (map degToRad (firstn 3 [0; 0; 180 / PI])).
Proof. exact torso_moves. Qed.

(** C143: there always are such torques if enough numbers are given, and no others are. *)
Theorem C143_answers : forall cs ms s mins maxs vels ik lim k0 k gv g, tree_open cs mins maxs vels ik = Some (s, lim) ->
  Forall described_chain cs -> tree_dyn_open k0 s cs ms gv = Some k -> gravity_at gv g -> forall q qd qdd ftip fr, no_self_merge cs ->
  (getNumJoints s <= length q)%nat -> (getNumJoints s <= length qd)%nat -> (getNumJoints s <= length qdd)%nat -> (6 * unmerged (tcp_chains cs) <= length ftip)%nat ->
  fr = BASE_FRAME \/ fr = TCP_FRAME -> exists ts, t_invDyn k s q qd qdd ftip fr = TTrue ts.
Proof. exact TreeDynFacts3.answers_tree. Qed.
Print Assumptions C143_answers.
Theorem C143_only : forall cs s mins maxs vels ik lim g, tree_open cs mins maxs vels ik = Some (s, lim) -> Forall described_chain cs -> Forall firm cs ->
  forall bs js vs x q v w ws ts ts', passes js vs x q v w -> length q = getNumJoints s -> length ts = getNumJoints s -> length ts' = getNumJoints s ->
  tree_drives g cs bs js x ws ts -> tree_drives g cs bs js x ws ts' -> ts = ts'.
Proof. exact TreeDynFacts3.drives_only. Qed.
Print Assumptions C143_only.
Example C143_answers_example : unmerged (tcp_chains torso) = 1%nat /\ no_self_merge torso /\ (6 * 1 <= length [1; 2; 3; 4; 5; 6])%nat.
Proof. exact (conj eq_refl (conj torso_no_self (le_n 6))). Qed.
