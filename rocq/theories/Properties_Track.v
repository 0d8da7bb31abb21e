(** Properties of following a line: whether a tool that is off its line comes back to it. *)
From Coq Require Import Reals ZArith List.
From Verif Require Import Kdl KdlRot KinRepSpec AsibotSpec Vocab Bcc BccSpec BccKdl BccLineSpec BccExamples BccLineExamples BccLineExamples2
  Sys SysSpec TrackFacts TrackExamples TrackSpec BccLineSpec LineSpec.
From Verif Require Screw KdlSolver.
Import ListNotations.
Open Scope R_scope.
Local Notation length := List.length.

(** C140: along a line, a tool that is off comes back: what it is off shrinks with each cycle, down to what the line bends in one cycle and what the robot does not do as told. *)
Theorem C140_line : forall d ch pre v c, Screw.chain_ok ch -> opened d ch pre v -> numJoints c = nr_of_joints (KdlSolver.sv_chain v) -> one_per_joint d v ->
  forall fuel xd s tr s1 h s2 v1 v2, usePosdMovl c = false -> 0 < duration s -> length xd = 6%nat -> exec (movl c fuel xd) s tr (Done true) s1 ->
  history c s1 h s2 -> Forall (fun e => lets_go_on (fst (fst e)) /\ no_tool (fst (fst e))) h ->
  Forall as_kdl (trace_of h) -> served d v tr v1 -> served d v1 (trace_of h) v2 ->
  exists g from start, joints_read (numJoints c) tr g /\ stands v g from /\ In (Now, start) tr /\
    let target := if Z.eqb (referenceFrame s) TCP_FRAME then fmul from (pose_at xd 0) else pose_at xd 0 in
    (regular_log (fM from) -> (referenceFrame s = TCP_FRAME -> regular_log (fM target)) -> measurable from target ->
     exists move, on_line from target (duration s) move /\ let k := pace from target (line_time from target (duration s)) in
     (forall u, norm (vsub (fp (move u)) (fp from)) <= 5 * (k * u * (k * u))) /\
     forall t0 ts rho hi slack, let period := IZR (cmcPeriodMs s) / 1000 in let timely h := 0 <= h <= hi /\ Rabs (1 - gain s * h / period) <= rho in
       Forall (driven h) (t0 :: ts) -> Forall (solvable d (numJoints c) v) (t0 :: ts) -> each_next (obeys (numJoints c) v timely slack) (t0 :: ts) ->
       0 <= rho < 1 -> 0 <= slack -> period <> 0 ->
       exists e0 es, Forall2 (off (numJoints c) v (num start) move) (t0 :: ts) (e0 :: es) /\
         forall i, (i <= length ts)%nat -> nth i (e0 :: es) 0 <= rho ^ i * e0 + (5 * (k * hi * (k * hi)) + slack) / (1 - rho)).
Proof. exact movl_tracks. Qed.
Print Assumptions C140_line.

Example C140_line_example :
  Screw.chain_ok slider_chain /\ opened sdev slider_chain [] slider /\ numJoints sled = nr_of_joints (KdlSolver.sv_chain slider) /\ one_per_joint sdev slider /\
  usePosdMovl sled = false /\ 0 < duration idle /\ length (row 1) = 6%nat /\ exec (movl sled 0 (row 1)) idle line_start (Done true) sliding /\
  history sled sliding late_cycles sliding /\ Forall (fun e => lets_go_on (fst (fst e)) /\ no_tool (fst (fst e))) late_cycles /\
  Forall as_kdl (trace_of late_cycles) /\ served sdev slider line_start slider /\ served sdev slider (trace_of late_cycles) slider /\
  joints_read 1 line_start [0] /\ stands slider [0] (at_x 0) /\ regular_log (fM (at_x 0)) /\ measurable (at_x 0) (pose_at (row 1) 0) /\
  Forall (driven late_cycles) [late_a; late_b] /\ Forall (solvable sdev 1 slider) [late_a; late_b] /\
  each_next (obeys 1 slider (fun h => 0 <= h <= 1 / 20 /\ Rabs (1 - gain idle * h / (IZR (cmcPeriodMs idle) / 1000)) <= 19 / 20) 0) [late_a; late_b] /\
  (joints_read 1 late_a [q_a] /\ stands slider [q_a] (at_x (2 / 5))) /\ (joints_read 1 late_b [q_b] /\ stands slider [q_b] (at_x (415 / 1000))).
Proof. exact slider_line. Qed.

(** C140: and likewise at constant velocity.  Partial: told in the frame of the base, and in the first ten metres or radians, after which KDL ends its path. *)
Theorem C140_constant_partial : forall d ch pre v c, Screw.chain_ok ch -> opened d ch pre v -> numJoints c = nr_of_joints (KdlSolver.sv_chain v) -> one_per_joint d v ->
  forall xd s tr s1 h s2 v1 v2, length xd = 6%nat -> exec (movv c xd) s tr (Done true) s1 -> referenceFrame s = BASE_FRAME ->
  history c s1 h s2 -> Forall (fun e => lets_go_on (fst (fst e)) /\ no_tool (fst (fst e))) h ->
  Forall as_kdl (trace_of h) -> served d v tr v1 -> served d v1 (trace_of h) v2 -> visible (twist_at xd 0) ->
  exists g from start, joints_read (numJoints c) tr g /\ stands v g from /\ In (Now, start) tr /\ (regular_log (fM from) ->
    forall t0 ts rho slack, let period := IZR (cmcPeriodMs s) / 1000 in let timely h := Rabs (1 - gain s * h / period) <= rho in
      Forall (driven h) (t0 :: ts) -> Forall (solvable d (numJoints c) v) (t0 :: ts) -> each_next (obeys (numJoints c) v timely slack) (t0 :: ts) ->
      Forall (fun t => forall now, In (Now, now) t -> 0 <= num now - num start /\ (num now - num start) * speed (twist_at xd 0) <= 10) (t0 :: ts) ->
      0 <= rho < 1 -> 0 <= slack -> period <> 0 ->
      exists e0 es, Forall2 (off (numJoints c) v (num start) (going from (twist_at xd 0))) (t0 :: ts) (e0 :: es) /\
        forall i, (i <= length ts)%nat -> nth i (e0 :: es) 0 <= rho ^ i * e0 + slack / (1 - rho)).
Proof. exact movv_tracks. Qed.
Print Assumptions C140_constant_partial.

Example C140_constant_partial_example :
  Screw.chain_ok slider_chain /\ opened sdev slider_chain [] slider /\ numJoints sled = nr_of_joints (KdlSolver.sv_chain slider) /\ one_per_joint sdev slider /\
  length (row (1 / 5)) = 6%nat /\ exec (movv sled (row (1 / 5))) idle drift_start (Done true) (drifting idle) /\ referenceFrame idle = BASE_FRAME /\
  history sled (drifting idle) drift_cycles (drifting idle) /\ Forall (fun e => lets_go_on (fst (fst e)) /\ no_tool (fst (fst e))) drift_cycles /\
  Forall as_kdl (trace_of drift_cycles) /\ served sdev slider drift_start slider /\ served sdev slider (trace_of drift_cycles) slider /\ visible (twist_at (row (1 / 5)) 0) /\
  joints_read 1 drift_start [0] /\ stands slider [0] (at_x 0) /\ regular_log (fM (at_x 0)) /\
  Forall (driven drift_cycles) [drift_c; drift_d] /\ Forall (solvable sdev 1 slider) [drift_c; drift_d] /\
  each_next (obeys 1 slider (fun h => Rabs (1 - gain idle * h / (IZR (cmcPeriodMs idle) / 1000)) <= 19 / 20) 0) [drift_c; drift_d] /\
  Forall (fun t => forall now, In (Now, now) t -> 0 <= num now - 5 /\ (num now - 5) * speed (twist_at (row (1 / 5)) 0) <= 10) [drift_c; drift_d] /\
  (joints_read 1 drift_c [q_c] /\ stands slider [q_c] (at_x (1 / 10))) /\ (joints_read 1 drift_d [q_d] /\ stands slider [q_d] (at_x (115 / 1000))).
Proof. exact slider_drifts. Qed.

(** C141: a gain that the controller accepts does not make the tool leave its line.  False: with a gain of 3, which is accepted, a robot that does exactly as told,
    cycle by cycle and on time, is twice as far from where it should be in the next cycle. *)
Theorem C141_gain_refuted : exists d ch v c s0 s xd tr s1 h s2 v2 t t' start e e',
  Screw.chain_ok ch /\ opened d ch [] v /\ numJoints c = nr_of_joints (KdlSolver.sv_chain v) /\ one_per_joint d v /\
  history c s0 [(OSet VOCAB_CC_CONFIG_GAIN 3, [], true)] s /\ exec (movv c xd) s tr (Done true) s1 /\ history c s1 h s2 /\
  Forall (fun e => lets_go_on (fst (fst e)) /\ no_tool (fst (fst e))) h /\ Forall as_kdl (trace_of h) /\ served d v (tr ++ trace_of h) v2 /\ visible (twist_at xd 0) /\
  (exists g from, joints_read (numJoints c) tr g /\ stands v g from /\ In (Now, number start) tr /\
     off (numJoints c) v start (going from (twist_at xd 0)) t e /\ off (numJoints c) v start (going from (twist_at xd 0)) t' e') /\
  driven h t /\ driven h t' /\ solvable d (numJoints c) v t /\ solvable d (numJoints c) v t' /\
  obeys (numJoints c) v (fun h => h = IZR (cmcPeriodMs s) / 1000) 0 t t' /\ 0 < e /\ e' = 2 * e.
Proof. exact gain_refuted. Qed.
Print Assumptions C141_gain_refuted.

(** C141: it holds for gains below 2 (above 0), for the same robots. *)
Theorem C141_gain_partial : forall d ch pre v c, Screw.chain_ok ch -> opened d ch pre v -> numJoints c = nr_of_joints (KdlSolver.sv_chain v) -> one_per_joint d v ->
  forall xd s tr s1 h s2 v1 v2, length xd = 6%nat -> exec (movv c xd) s tr (Done true) s1 -> referenceFrame s = BASE_FRAME ->
  history c s1 h s2 -> Forall (fun e => lets_go_on (fst (fst e)) /\ no_tool (fst (fst e))) h ->
  Forall as_kdl (trace_of h) -> served d v tr v1 -> served d v1 (trace_of h) v2 -> visible (twist_at xd 0) -> 0 < gain s < 2 ->
  exists g from start, joints_read (numJoints c) tr g /\ stands v g from /\ In (Now, start) tr /\ (regular_log (fM from) ->
    forall t t', let period := IZR (cmcPeriodMs s) / 1000 in
      driven h t -> driven h t' -> solvable d (numJoints c) v t -> solvable d (numJoints c) v t' -> obeys (numJoints c) v (fun h => h = period) 0 t t' ->
      Forall (fun t => forall now, In (Now, now) t -> 0 <= num now - num start /\ (num now - num start) * speed (twist_at xd 0) <= 10) [t; t'] ->
      period <> 0 ->
      exists e e', off (numJoints c) v (num start) (going from (twist_at xd 0)) t e /\ off (numJoints c) v (num start) (going from (twist_at xd 0)) t' e' /\
        e' <= Rabs (1 - gain s) * e /\ (0 < e -> e' < e)).
Proof. exact movv_gain. Qed.
Print Assumptions C141_gain_partial.

(** the other hypotheses are met as in the example of C140_constant_partial *)
Example C141_gain_partial_example : 0 < gain idle < 2 /\
  (forall t t', [drift_c; drift_d] = [t; t'] -> obeys 1 slider (fun h => h = IZR (cmcPeriodMs idle) / 1000) 0 t t').
Proof. exact drift_on_time. Qed.
