(** Theorems about KdlTreeSolver (libraries/YarpPlugins/KdlTreeSolver) and about the parts of KdlSolver that hand twists and wrenches to KDL.
    [tree_open] reads the chains of the file and returns the solver, or [None] if they are rejected; [TUndef] is the outcome of
    calls that read outside their arguments. The functions in [tree_solvers] and [chain_solvers] stand for KDL's own solvers. *)
From Coq Require Import Reals List Bool String ZArith Lra Lia.
From Verif Require Import AsibotSpec Kdl KdlFacts KdlRot KinRep KdlSolver Ft Config ConfigSpec ConfigFacts Tree TreeSpec TreeFacts TreeFacts2 TreeFacts3 TreeFacts4 TreeFacts5.
Import ListNotations.
Open Scope R_scope.
Local Notation S := Datatypes.S.
Local Notation length := List.length.
Local Notation concat := List.concat.

(** C89: forward kinematics gives one pose for each endpoint of the file, in the order of the file, where the description says *)
Theorem C89_forward : forall cs mins maxs vels ik s lim, tree_open cs mins maxs vels ik = Some (s, lim) ->
  Forall described_chain cs ->
  getNumJoints s = list_sum (map (fun c => length (links_of c)) cs) /\ getNumTcps s = length (tcp_chains cs) /\
  forall q, (getNumJoints s <= length q)%nat ->
  exists fs, t_fwdKin s q = TTrue (concat (map frameToVector fs)) /\
    Forall2 (frame_at cs (fun j => degToRad (nth j q 0))) (map tc_name (tcp_chains cs)) fs.
Proof. exact tree_forward. Qed.
Print Assumptions C89_forward.
(** C89: the description of an accepted file gives each frame one pose *)
Theorem C89_unique : forall cs mins maxs vels ik s lim, tree_open cs mins maxs vels ik = Some (s, lim) ->
  Forall described_chain cs -> forall x n f f', frame_at cs x n f -> frame_at cs x n f' -> f = f'.
Proof. exact pose_unique. Qed.
Print Assumptions C89_unique.
Example C89_nonvacuous : (exists s lim, tree_open torso (three (-10)) (three 10) (three 1) (Some "online"%string) = Some (s, lim) /\ getNumJoints s = 3%nat) /\
  Forall described_chain torso /\ map tc_name (tcp_chains torso) = ["right"; "left"]%string.
Proof. split; [exact torso_open|]. split; [exact torso_described|reflexivity]. Qed.

(** C89: the joints of a chain that does not lead to a frame do not move it *)
Theorem C89_independent : forall cs x y n f k c, nth_error cs k = Some c -> ~ on_path cs n k ->
  (forall j, ~ (first_joint cs k <= j < first_joint cs k + length (links_of c))%nat -> x j = y j) ->
  frame_at cs x n f -> frame_at cs y n f.
Proof. exact pose_independent. Qed.
Print Assumptions C89_independent.
Example C89_nonvacuous_independent : ~ on_path torso "right" 2 /\ exists c, nth_error torso 2 = Some c /\ length (links_of c) = 1%nat.
Proof. split; [exact torso_path|]. eexists. split; reflexivity. Qed.

(** C90: a file with one chain means the same to KdlTreeSolver and to KdlSolver *)
Theorem C90_chain : forall name ch n mins maxs vels ik s lim sc k ikp o i,
  ch_numLinks ch = Some n -> tree_open [Tc name None ch true None] mins maxs vels ik = Some (s, lim) ->
  kdl_open ch sc = Some (k, ikp) ->
  getNumJoints s = nr_of_joints k /\ getNumTcps s = 1%nat /\
  (forall q, t_fwdKin s q = match fwdKin (Sv k o i) q with Some x => TTrue x | None => TUndef end) /\
  (forall x y, length x = 6%nat -> length y = 6%nat ->
     t_poseDiff s x y = Some (poseDiff x y) /\ t_changeOrigin s x y = Some (changeOrigin x y)).
Proof. exact tree_is_chain. Qed.
Print Assumptions C90_chain.
Example C90_nonvacuous : ch_numLinks arm2 = Some 2%Z /\
  (exists s lim, tree_open [Tc "arm" None arm2 true None] (Some [-10; -20]) (Some [10; 20]) (Some [1; 1]) None = Some (s, lim) /\ getNumJoints s = 2%nat) /\
  exists k ik, kdl_open arm2 arm2_solver = Some (k, ik).
Proof. split; [reflexivity|]. split; [exact arm2_tree|]. destruct arm2_open as [k E]. eauto. Qed.

(** C52: a merged endpoint is given the target of the one it is merged with, and the others read theirs from consecutive groups of six
    numbers. Missing: an endpoint merged with itself, see below. *)
Theorem C52_targets_partial : forall cs mins maxs vels ik s lim, tree_open cs mins maxs vels ik = Some (s, lim) ->
  Forall described_chain cs -> no_self_merge cs -> forall x q, (6 * unmerged (tcp_chains cs) <= length x)%nat -> (getNumJoints s <= length q)%nat ->
  let qr := map degToRad (firstn (getNumJoints s) q) in
  (exists m, assigned vectorToFrame cs x m /\ forall k, t_invKin k s x q BASE_FRAME = match k_ik k qr m with None => TFalse | Some r => TTrue (map radToDeg r) end) /\
  (exists m, assigned vectorToTwist cs x m /\ forall k, t_diffInvKin k s q x BASE_FRAME = match k_vel k qr m with None => TFalse | Some r => TTrue (map radToDeg r) end) /\
  (exists m, assigned vectorToWrench cs x m /\ forall k qd qdd, (getNumJoints s <= length qd)%nat -> (getNumJoints s <= length qdd)%nat ->
     t_invDyn k s q qd qdd x TCP_FRAME =
     match k_dyn k qr (map degToRad (firstn (getNumJoints s) qd)) (map degToRad (firstn (getNumJoints s) qdd)) m with None => TFalse | Some r => TTrue r end).
Proof. exact merged_targets. Qed.
Print Assumptions C52_targets_partial.
Example C52_nonvacuous : (exists s lim, tree_open torso (three (-10)) (three 10) (three 1) (Some "online"%string) = Some (s, lim) /\ getNumJoints s = 3%nat) /\
  Forall described_chain torso /\ no_self_merge torso /\ unmerged (tcp_chains torso) = 1%nat /\ length (tcp_chains torso) = 2%nat.
Proof. split; [exact torso_open|]. split; [exact torso_described|]. split; [exact torso_no_self|]. split; reflexivity. Qed.
(** C52: with fewer numbers the call is undefined *)
Theorem C52_short : forall cs mins maxs vels ik s lim, tree_open cs mins maxs vels ik = Some (s, lim) ->
  Forall described_chain cs -> no_self_merge cs -> forall x q fr, (length x < 6 * unmerged (tcp_chains cs))%nat \/ (length q < getNumJoints s)%nat ->
  forall k, t_invKin k s x q fr = TUndef /\ t_diffInvKin k s q x fr = TUndef.
Proof. exact short_targets. Qed.
Print Assumptions C52_short.
(** C52 is false of an endpoint merged with itself: the file is accepted and its target is the identity, whatever is asked for *)
Theorem C52_self_refuted : exists cs mins maxs vels ik s lim c, tree_open cs mins maxs vels ik = Some (s, lim) /\ Forall described_chain cs /\
  In c (tcp_chains cs) /\ tc_merge c = Some (tc_name c) /\
  forall k x, t_invKin k s x [] BASE_FRAME = match k_ik k [] [(tc_name c, fid)] with None => TFalse | Some r => TTrue (map radToDeg r) end.
Proof. exact self_merge. Qed.
Print Assumptions C52_self_refuted.

(** C91: the output of forward kinematics, used as a target, asks each unmerged endpoint for its own pose. Missing: files with an
    unmerged endpoint after a merged one, see below. *)
Theorem C91_back_partial : forall cs mins maxs vels ik s lim, tree_open cs mins maxs vels ik = Some (s, lim) ->
  Forall described_chain cs -> no_self_merge cs -> merged_last cs ->
  forall q x, (getNumJoints s <= length q)%nat -> t_fwdKin s q = TTrue x ->
  exists m, (forall k q0, (getNumJoints s <= length q0)%nat -> t_invKin k s x q0 BASE_FRAME =
      match k_ik k (map degToRad (firstn (getNumJoints s) q0)) m with None => TFalse | Some r => TTrue (map radToDeg r) end) /\
    forall c f, In c (tcp_chains cs) -> tc_merge c = None -> frame_at cs (fun j => degToRad (nth j q 0)) (tc_name c) f ->
      In (tc_name c, vectorToFrame (frameToVector f)) m.
Proof. exact poses_back. Qed.
Print Assumptions C91_back_partial.
Example C91_nonvacuous : (exists s lim, tree_open torso (three (-10)) (three 10) (three 1) (Some "online"%string) = Some (s, lim) /\ getNumJoints s = 3%nat) /\
  Forall described_chain torso /\ no_self_merge torso /\ merged_last torso.
Proof. split; [exact torso_open|]. split; [exact torso_described|]. split; [exact torso_no_self|exact torso_merged_last]. Qed.
(** C91 is false when an unmerged endpoint comes after a merged one: it is asked for the pose of another *)
Theorem C91_shifted_refuted : exists cs mins maxs vels ik s lim q x m c f, tree_open cs mins maxs vels ik = Some (s, lim) /\
  Forall described_chain cs /\ no_self_merge cs /\ (getNumJoints s <= length q)%nat /\ t_fwdKin s q = TTrue x /\
  (forall k, t_invKin k s x q BASE_FRAME = match k_ik k (map degToRad q) m with None => TFalse | Some r => TTrue (map radToDeg r) end) /\
  In c (tcp_chains cs) /\ tc_merge c = None /\ frame_at cs (fun j => degToRad (nth j q 0)) (tc_name c) f /\
  ~ In (tc_name c, vectorToFrame (frameToVector f)) m.
Proof. exact poses_shifted. Qed.
Print Assumptions C91_shifted_refuted.

(** C92: targets in the frame of the TCP are the same targets turned (or moved) by its current pose *)
Theorem C92_tree : forall cs mins maxs vels ik s lim, tree_open cs mins maxs vels ik = Some (s, lim) ->
  Forall described_chain cs -> no_self_merge cs -> forall x q, (6 * unmerged (tcp_chains cs) <= length x)%nat -> (getNumJoints s <= length q)%nat ->
  let qr := map degToRad (firstn (getNumJoints s) q) in
  (exists m m', assigned vectorToFrame cs x m /\ rebased fmul cs (fun j => degToRad (nth j q 0)) m m' /\
     forall k, t_invKin k s x q TCP_FRAME = match k_ik k qr m' with None => TFalse | Some r => TTrue (map radToDeg r) end) /\
  (exists m m', assigned vectorToTwist cs x m /\ rebased (fun h t => Tw (mv (fM h) (t_vel t)) (mv (fM h) (t_rot t))) cs (fun j => degToRad (nth j q 0)) m m' /\
     forall k, t_diffInvKin k s q x TCP_FRAME = match k_vel k qr m' with None => TFalse | Some r => TTrue (map radToDeg r) end) /\
  (exists m m', assigned vectorToWrench cs x m /\
     rebased (fun h w => Wr (mv (mT (fM h)) (w_force w)) (mv (mT (fM h)) (w_torque w))) cs (fun j => degToRad (nth j q 0)) m m' /\
     forall k qd qdd, (getNumJoints s <= length qd)%nat -> (getNumJoints s <= length qdd)%nat ->
     t_invDyn k s q qd qdd x BASE_FRAME =
     match k_dyn k qr (map degToRad (firstn (getNumJoints s) qd)) (map degToRad (firstn (getNumJoints s) qdd)) m' with None => TFalse | Some r => TTrue r end).
Proof. exact tcp_targets. Qed.
Print Assumptions C92_tree.
Theorem C92_chain : forall s q, (nr_of_joints (sv_chain s) <= length q)%nat ->
  exists f, fwdKin s q = Some (frameToVector f) /\
  (forall k v, diffInvKin k s q (twistToVector v) TCP_FRAME = diffInvKin k s q (twistToVector (Tw (mv (fM f) (t_vel v)) (mv (fM f) (t_rot v)))) BASE_FRAME) /\
  (forall k qd qdd w, invDyn k s q qd qdd (wrenchToVector w) BASE_FRAME =
     invDyn k s q qd qdd (wrenchToVector (Wr (mv (mT (fM f)) (w_force w)) (mv (mT (fM f)) (w_torque w)))) TCP_FRAME).
Proof. exact chain_tcp_twist. Qed.
Print Assumptions C92_chain.
Example C92_nonvacuous : (exists s lim, tree_open torso (three (-10)) (three 10) (three 1) (Some "online"%string) = Some (s, lim) /\ getNumJoints s = 3%nat) /\
  Forall described_chain torso /\ no_self_merge torso /\ unmerged (tcp_chains torso) = 1%nat.
Proof. split; [exact torso_open|]. split; [exact torso_described|]. split; [exact torso_no_self|]. reflexivity. Qed.
(** C92: other frames are refused *)
Theorem C92_others : forall kc s q v qd qdd w, let n := nr_of_joints (sv_chain s) in
  (n <= length q)%nat -> (n <= length qd)%nat -> (n <= length qdd)%nat ->
  diffInvKin kc s q v OTHER_FRAME = TFalse /\ invDyn kc s q qd qdd w OTHER_FRAME = TFalse.
Proof. exact other_frames. Qed.
Print Assumptions C92_others.
Theorem C92_others_tree : forall cs mins maxs vels ik s lim, tree_open cs mins maxs vels ik = Some (s, lim) ->
  Forall described_chain cs -> no_self_merge cs -> forall kt q v qd qdd, (6 * unmerged (tcp_chains cs) <= length v)%nat ->
  (getNumJoints s <= length q)%nat -> (getNumJoints s <= length qd)%nat -> (getNumJoints s <= length qdd)%nat ->
  t_invKin kt s v q OTHER_FRAME = TFalse /\ t_diffInvKin kt s q v OTHER_FRAME = TFalse /\ t_invDyn kt s q qd qdd v OTHER_FRAME = TFalse.
Proof. exact other_tree_frames. Qed.
Print Assumptions C92_others_tree.

(** C93: if KDL's velocity solver does what it says, joints that move with the velocities of diffInvKin move the TCP with the velocity asked
    for, as told by forward kinematics *)
Theorem C93_chain : forall k s q, (nr_of_joints (sv_chain s) <= length q)%nat -> faithful_chain k s q ->
  forall x qd fr, (fr = BASE_FRAME \/ fr = TCP_FRAME) -> diffInvKin k s q x fr = TTrue qd ->
  exists p, (forall t, chain_fwd_kin (sv_chain s) (map degToRad (moving q qd t)) = Some (p t) /\ fwdKin s (moving q qd t) = Some (frameToVector (p t))) /\
    velocity_of p 0 (match fr with TCP_FRAME => Tw (mv (fM (p 0)) (t_vel (vectorToTwist x))) (mv (fM (p 0)) (t_rot (vectorToTwist x))) | _ => vectorToTwist x end).
Proof. exact chain_velocity. Qed.
Print Assumptions C93_chain.
Example C93_nonvacuous : forall ik q, nr_of_joints (sv_chain (Sv mast_chain mast_chain ik)) = 1%nat /\
  faithful_chain mast_solvers (Sv mast_chain mast_chain ik) [q] /\
  diffInvKin mast_solvers (Sv mast_chain mast_chain ik) [q] [0; 0; 0; 0; 0; 1] BASE_FRAME = TTrue [180 / PI].
Proof. intros. split; [reflexivity|]. split; [apply mast_faithful|apply mast_moves]. Qed.
Theorem C93_tree : forall cs mins maxs vels ik s lim, tree_open cs mins maxs vels ik = Some (s, lim) ->
  Forall described_chain cs -> no_self_merge cs ->
  forall k q, (getNumJoints s <= length q)%nat -> faithful_tree k cs (map degToRad (firstn (getNumJoints s) q)) ->
  forall x qd fr, (fr = BASE_FRAME \/ fr = TCP_FRAME) -> t_diffInvKin k s q x fr = TTrue qd ->
  forall i c, nth_error (tcp_chains cs) i = Some c -> tc_merge c = None ->
  exists p, (forall t, frame_at cs (fun j => degToRad (nth j (moving q qd t) 0)) (tc_name c) (p t)) /\
    let v := vectorToTwist (six x (unmerged (firstn i (tcp_chains cs)))) in
    velocity_of p 0 (match fr with TCP_FRAME => Tw (mv (fM (p 0)) (t_vel v)) (mv (fM (p 0)) (t_rot v)) | _ => v end).
Proof. exact tree_velocity. Qed.
Print Assumptions C93_tree.
Example C93_nonvacuous_tree : forall q, Forall described_chain pole /\ no_self_merge pole /\ faithful_tree pole_solvers pole [degToRad q] /\
  exists s lim, tree_open pole (Some [-10]) (Some [10]) (Some [1]) None = Some (s, lim) /\ getNumJoints s = 1%nat /\
  t_diffInvKin pole_solvers s [q] [0; 0; 0; 0; 0; 1] BASE_FRAME = TTrue [180 / PI].
Proof. intro q. split; [exact pole_described|]. split; [exact pole_no_self|]. split; [apply pole_faithful|apply pole_moves]. Qed.

(** C94: the torques for the weight alone are those of a robot at rest without external forces, in either frame *)
Theorem C94_chain : forall k s q fr, (fr = BASE_FRAME \/ fr = TCP_FRAME) -> sv_chain s <> [] -> (nr_of_joints (sv_chain s) <= length q)%nat ->
  let z := repeat 0 (nr_of_joints (sv_chain s)) in gravityDyn k s q = invDyn k s q z z (repeat 0 6) fr.
Proof. exact chain_gravity. Qed.
Print Assumptions C94_chain.
Theorem C94_tree : forall cs mins maxs vels ik s lim, tree_open cs mins maxs vels ik = Some (s, lim) ->
  Forall described_chain cs ->
  forall k q fr, (fr = BASE_FRAME \/ fr = TCP_FRAME) -> (getNumJoints s <= length q)%nat ->
  let z := repeat 0 (getNumJoints s) in t_gravity k s q = t_invDyn k s q z z (repeat 0 (6 * getNumTcps s)) fr.
Proof. exact tree_gravity. Qed.
Print Assumptions C94_tree.
Example C94_nonvacuous : (forall ik, sv_chain (Sv mast_chain mast_chain ik) <> []) /\
  (exists s lim, tree_open torso (three (-10)) (three 10) (three 1) (Some "online"%string) = Some (s, lim) /\ getNumJoints s = 3%nat) /\
  Forall described_chain torso.
Proof. split; [discriminate|]. split; [exact torso_open|exact torso_described]. Qed.
