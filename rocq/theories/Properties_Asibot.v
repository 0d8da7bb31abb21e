(** Properties of the solver of ASIBOT. *)
From Coq Require Import Reals List.
From Verif Require Import Kdl KdlRot Trig KinRep KinRepSpec Asibot AsibotSpec AsibotFacts AsibotFacts2 AsibotFacts3 AsibotFacts4 AsibotFacts5 AsibotFacts6 AsibotExamples.
Import ListNotations.
Open Scope R_scope.

(** C48: the position of forward kinematics, without a tool. *)
Theorem C48_forward_position : forall svd s q, length q = 5%nat -> hasFrame s = false ->
  exists x, fwdKin svd s q = Some x /\ length x = 6%nat /\ firstn 3 x = three (fp (flange s q)).
Proof. exact forward_position. Qed.
Print Assumptions C48_forward_position.
(** C48: the pose of forward kinematics, for a flange ahead of the first axis. *)
Theorem C48_forward_partial : forall svd s q, length q = 5%nat -> svd_ok svd -> 0 < ahead s q -> rigid (tool s) ->
  regular_log (fM (flange s q)) -> regular_log (fM (fmul (flange s q) (tool s))) ->
  exists x, fwdKin svd s q = Some x /\ denotes x (fmul (flange s q) (tool s)).
Proof. exact forward_pose. Qed.
Print Assumptions C48_forward_partial.
Example C48_forward_example : exists x, fwdKin svd0 sT qa = Some x /\ denotes x (F (RotY (PI / 2)) (V (5 / 2) 0 1)).
Proof. exact forward_a. Qed.
(** C48: behind the first axis the orientation is another one. *)
Theorem C48_behind_refuted : exists s q x, length q = 5%nat /\ hasFrame s = false /\ regular_log (fM (flange s q)) /\ fwdKin svd0 s q = Some x /\ ~ denotes x (flange s q).
Proof. exact behind. Qed.
Print Assumptions C48_behind_refuted.

(** C48: the joints that inverse kinematics returns, up to the rounding of angles below 0.001
    degrees to zero, reach the position and the pitch; and the pose, if two angles describe it. *)
Theorem C48_inverse : forall svd s xd guess n q, well_made s -> svd_ok svd -> rigid (tool s) -> rigid n -> denotes xd (fmul n (tool s)) -> (hasFrame s = true -> regular_log (fM n)) ->
  invKin svd s xd guess BASE_FRAME = Some (Some q) ->
  within_tolerance q (qMin s) (qMax s) /\ one_turn q /\
  exists q', close q' q /\ fp (flange s q') = fp n /\ Rabs (m22 (fM (flange s q')) - m22 (fM n)) <= tiny /\
    (yz_pose n -> fmul (flange s q') (tool s) = fmul n (tool s)).
Proof. exact inverse. Qed.
Print Assumptions C48_inverse.
(** C48: the same for a target in the frame of the tool. *)
Theorem C48_inverse_tcp : forall svd s xd guess x0 h0 d n q, well_made s -> svd_ok svd -> rigid (tool s) -> rigid n ->
  fwdKin svd s guess = Some x0 -> denotes x0 h0 -> denotes xd d -> regular_log (fM (fmul h0 d)) -> fmul n (tool s) = fmul h0 d -> (hasFrame s = true -> regular_log (fM n)) ->
  invKin svd s xd guess TCP_FRAME = Some (Some q) ->
  within_tolerance q (qMin s) (qMax s) /\ one_turn q /\
  exists q', close q' q /\ fp (flange s q') = fp n /\ Rabs (m22 (fM (flange s q')) - m22 (fM n)) <= tiny /\
    (yz_pose n -> fmul (flange s q') (tool s) = fmul h0 d).
Proof. exact inverse_tcp. Qed.
Print Assumptions C48_inverse_tcp.
(** C48: a pose that two angles describe and the arm reaches is found, unless the wrist is at
    the shoulder. *)
Theorem C48_found : forall svd s xd guess q0, well_made s -> svd_ok svd -> 0 < A1 s -> 0 < A2 s -> 0 <= A3 s -> (5 <= length guess)%nat -> rigid (tool s) ->
  denotes xd (fmul (flange s q0) (tool s)) -> (hasFrame s = true -> regular_log (fM (flange s q0))) ->
  within q0 (qMin s) (qMax s) -> one_turn q0 -> ~ wrist_at_shoulder s q0 -> yz_pose (flange s q0) ->
  exists q, invKin svd s xd guess BASE_FRAME = Some (Some q).
Proof. exact found. Qed.
Print Assumptions C48_found.
Example C48_found_example : exists q, invKin svd0 sT (xa (5 / 2)) [0; 0; 0; 0; 0] BASE_FRAME = Some (Some q).
Proof. exact found_a. Qed.
Example C48_svd_example : svd_ok svd0.
Proof. exact svd0_ok. Qed.
(** C48: for any target the answer is defined. *)
Theorem C48_answers : forall svd s xd guess n, well_made s -> svd_ok svd -> rigid (tool s) -> rigid n -> denotes xd (fmul n (tool s)) -> (hasFrame s = true -> regular_log (fM n)) ->
  (5 <= length guess)%nat -> exists o, invKin svd s xd guess BASE_FRAME = Some o.
Proof. exact answers. Qed.
Print Assumptions C48_answers.
(** C48: with the wrist at the shoulder a reachable pose is refused. *)
Theorem C48_shoulder_refuted : exists s q0 xd guess, well_made s /\ 0 < A1 s /\ 0 < A2 s /\ 0 <= A3 s /\ hasFrame s = false /\ (5 <= length guess)%nat /\
  denotes xd (flange s q0) /\ within q0 (qMin s) (qMax s) /\ one_turn q0 /\ yz_pose (flange s q0) /\ invKin svd0 s xd guess BASE_FRAME = Some None.
Proof. exact at_shoulder. Qed.
Print Assumptions C48_shoulder_refuted.
(** C48: a pose that the arm reaches with the wrist bent backwards is answered with joints of
    another orientation. *)
Theorem C48_orientation_refuted : exists s q0 xd guess q, well_made s /\ 0 < A1 s /\ 0 < A2 s /\ 0 <= A3 s /\ hasFrame s = false /\
  denotes xd (flange s q0) /\ within q0 (qMin s) (qMax s) /\ one_turn q0 /\ 0 < ahead s q0 /\
  invKin svd0 s xd guess BASE_FRAME = Some (Some q) /\ forall q', close q' q -> fM (flange s q') <> fM (flange s q0).
Proof. exact reversed. Qed.
Print Assumptions C48_orientation_refuted.

(** C68: no other joints reaching the pose within limits are nearer to the guess, in total and
    up to rounding, than some [best] that reaches it too; the answer is [best] or moves the
    second joint no more. *)
Theorem C68_shortest : forall svd s xd guess n q, well_made s -> svd_ok svd -> 0 < A1 s -> 0 < A2 s -> (5 <= length guess)%nat -> rigid (tool s) -> rigid n ->
  denotes xd (fmul n (tool s)) -> (hasFrame s = true -> regular_log (fM n)) -> yz_pose n ->
  invKin svd s xd guess BASE_FRAME = Some (Some q) ->
  exists best best', close best' best /\ flange s best' = n /\ within_tolerance best (qMin s) (qMax s) /\ one_turn best /\
    (forall q0, within q0 (qMin s) (qMax s) -> one_turn q0 -> ~ wrist_at_shoulder s q0 -> flange s q0 = n -> distance guess best <= distance guess q0 + 5 / 1000) /\
    (q = best \/ second guess q <= second guess best).
Proof. exact shortest. Qed.
Print Assumptions C68_shortest.
Example C68_example : yz_pose (F (RotY (PI / 2)) (V (3 / 2) 0 1)) /\ flange sT qa = F (RotY (PI / 2)) (V (3 / 2) 0 1) /\ ~ wrist_at_shoulder sT qa /\ one_turn qa.
Proof. exact (conj yz_a (conj (flange_a sT eq_refl eq_refl eq_refl eq_refl) (conj (not_shoulder_a sT eq_refl eq_refl) turn_a))). Qed.

(** C49: the columns of the Jacobian in the base frame are the velocities of the flange. *)
Theorem C49_base : forall svd s q, length q = 5%nat -> hasFrame s = false ->
  exists cols, jacobian svd s q BASE_FRAME = Some (Some cols) /\ length cols = 5%nat /\
  forall i c, nth_error cols i = Some c -> velocity_of (moved s q i) (rad (nth i q 0)) c.
Proof. exact base_velocities. Qed.
Print Assumptions C49_base.
(** C49: those in the frame of the flange are the same velocities seen from it. *)
Theorem C49_tcp : forall svd s q, length q = 5%nat -> hasFrame s = false ->
  exists cols, jacobian svd s q TCP_FRAME = Some (Some cols) /\ length cols = 5%nat /\
  forall i c, nth_error cols i = Some c -> exists v, velocity_of (moved s q i) (rad (nth i q 0)) v /\
    t_vel c = mv (mT (fM (flange s q))) (t_vel v) /\ t_rot c = mv (mT (fM (flange s q))) (t_rot v).
Proof. exact tcp_velocities. Qed.
Print Assumptions C49_tcp.
Example C49_example : length qa = 5%nat /\ hasFrame s1 = false /\
  nth_error (base_jacobian 1 1 (/ 2) (rad 0) (rad 30) (rad 120) (rad (-60))) 0 = Some (Tw (V 0 (3 / 2) 0) (V 0 0 1)).
Proof. exact (conj eq_refl (conj eq_refl (first_col s1 eq_refl eq_refl eq_refl))). Qed.

(** C69: with a tool that is not rotated, the columns in the base frame are the velocities of
    its tip. *)
Theorem C69_tool_partial : forall svd s q, length q = 5%nat -> svd_ok svd -> hasFrame s = true -> fM (frameTcp s) = mid -> 0 < ahead s q -> regular_log (fM (flange s q)) ->
  exists cols, jacobian svd s q BASE_FRAME = Some (Some cols) /\ length cols = 5%nat /\
  forall i c, nth_error cols i = Some c -> velocity_of (fun u => fmul (moved s q i u) (frameTcp s)) (rad (nth i q 0)) c.
Proof. exact tool_velocities. Qed.
Print Assumptions C69_tool_partial.
Example C69_example : hasFrame sT = true /\ fM (frameTcp sT) = mid /\ ahead sT qa = 3 / 2 /\ flange sT qa = F (RotY (PI / 2)) (V (3 / 2) 0 1) /\ regular_log (RotY (PI / 2)).
Proof. exact (conj eq_refl (conj eq_refl (conj (ahead_a sT eq_refl eq_refl eq_refl) (conj (flange_a sT eq_refl eq_refl eq_refl eq_refl) off_Y)))). Qed.
(** C69: not with a rotated one. *)
Theorem C69_rotated_refuted : exists s q cols c, length q = 5%nat /\ rigid (tool s) /\ 0 < ahead s q /\ regular_log (fM (flange s q)) /\ regular_log (fM (fmul (flange s q) (tool s))) /\
  jacobian svd0 s q BASE_FRAME = Some (Some cols) /\ nth_error cols 0 = Some c /\ ~ velocity_of (fun u => fmul (moved s q 0 u) (tool s)) (rad (nth 0 q 0)) c.
Proof. exact rotated_tool. Qed.
Print Assumptions C69_rotated_refuted.
(** C69: nor in the frame of the tool, even if it is not rotated. *)
Theorem C69_tcp_refuted : exists s q cols c v, length q = 5%nat /\ fM (tool s) = mid /\ 0 < ahead s q /\ regular_log (fM (flange s q)) /\
  jacobian svd0 s q TCP_FRAME = Some (Some cols) /\ nth_error cols 0 = Some c /\
  velocity_of (fun u => fmul (moved s q 0 u) (tool s)) (rad (nth 0 q 0)) v /\ t_vel c <> mv (mT (fM (fmul (flange s q) (tool s)))) (t_vel v).
Proof. exact tcp_tool. Qed.
Print Assumptions C69_tcp_refuted.

(** C44: tools are appended to the flange of the original arm. *)
Theorem C44_asibot_forward_partial : forall svd s xs hs q, svd_ok svd -> untooled s -> Forall2 denotes xs hs -> length q = 5%nat -> 0 < ahead s q ->
  let h := fold_left fmul hs (tool s) in rigid h -> regular_log (fM (flange s q)) -> regular_log (fM (fmul (flange s q) h)) ->
  exists s' x, append_all s xs = Some s' /\ fwdKin svd s' q = Some x /\ denotes x (fmul (flange s q) h).
Proof. exact appended_forward. Qed.
Print Assumptions C44_asibot_forward_partial.
(** C44: and removing them restores it. *)
Theorem C44_asibot_restored : forall svd s xs s' q, untooled s -> hasFrame s = false -> append_all s xs = Some s' ->
  fwdKin svd (restoreOriginalChain s') q = fwdKin svd s q.
Proof. exact restored_forward. Qed.
Print Assumptions C44_asibot_restored.
(** C44: an opened device has no tool, and limits in order. *)
Theorem C44_asibot_opened : forall a0 a1 a2 a3 lo hi s, as_open a0 a1 a2 a3 lo hi = Some s ->
  well_made s /\ untooled s /\ tool s = fid /\ (forall i l h, nth_error (qMin s) i = Some l -> nth_error (qMax s) i = Some h -> l <= h) /\
  A0 s = a0 /\ A1 s = a1 /\ A2 s = a2 /\ A3 s = a3 /\ qMin s = lo /\ qMax s = hi.
Proof. exact opened. Qed.
Print Assumptions C44_asibot_opened.
Example C44_asibot_example : as_open 1 1 1 (/ 2) (map Ropp lim) lim = Some s1 /\ append_all s1 [[0; 0; 1; 0; 0; 0]] = Some sT /\ denotes [0; 0; 1; 0; 0; 0] (up 1).
Proof. exact (conj opened_s1 (conj appended_sT (denotes_up 1))). Qed.

(** C47: a change of origin is a composition. *)
Theorem C47_asibot_origin : forall svd x y a b, svd_ok svd -> denotes x a -> denotes y b -> regular_log (fM (fmul b a)) ->
  exists z, changeOrigin svd x y = Some z /\ denotes z (fmul b a).
Proof. exact origin. Qed.
Print Assumptions C47_asibot_origin.
(** C47: the difference of two poses leads from one to the other. *)
Theorem C47_asibot_difference : forall svd x y l r, svd_ok svd -> denotes x l -> denotes y r -> regular_log (mm (mT (fM r)) (fM l)) ->
  exists a t, poseDiff svd x y = Some (three (vsub (fp l) (fp r)) ++ three (vscale t a)) /\ unit a /\ 0 <= t /\ mm (Rot2 a t) (fM r) = fM l.
Proof. exact difference. Qed.
Print Assumptions C47_asibot_difference.
Theorem C47_asibot_equal : forall svd x h, svd_ok svd -> denotes x h -> poseDiff svd x x = Some [0; 0; 0; 0; 0; 0].
Proof. exact equal_poses. Qed.
Print Assumptions C47_asibot_equal.
Example C47_asibot_example : denotes (xa 2) (F (RotY (PI / 2)) (V 2 0 1)) /\ denotes [0; 0; 1; 0; 0; 0] (up 1) /\ regular_log (RotY (PI / 2)).
Proof. exact (conj (denotes_a 2) (conj (denotes_up 1) off_Y)). Qed.
(** C66: other reference frames are refused. *)
Theorem C66_asibot_refused : forall svd s xd guess, invKin svd s xd guess OTHER_FRAME = Some None.
Proof. exact other_frames. Qed.
Print Assumptions C66_asibot_refused.
