(** The dynamics: torques against gravity and forces, and in motion. *)
From Coq Require Import Reals ZArith List Bool.
From Verif Require Import Kdl KdlFacts KdlRot Vocab Bcc BccSpec BccLineSpec BccCmdSpec BccExamples BccLineExamples BccCmdExamples Sys SysSpec SysExamples2 SysExamples3.
From Verif Require KinRep KdlSolver Tree.
From Verif Require Import Config ConfigSpec TreeSpec Dyn AsibotSpec DynSpec DynFacts6 DynFacts8 DynExamples.
Import ListNotations.
Open Scope R_scope.
Local Notation length := List.length.

(** C135: the torques that the solver computes against gravity do the work that moving the joints takes: they are the derivatives of the potential energy. *)
Theorem C135_gravity : forall vel g bs s q ts, solid (KdlSolver.sv_chain s) -> (length bs <= length (KdlSolver.sv_chain s))%nat ->
  Tree.gravityDyn (dyn_solvers vel g (map (fun b => mk_inertia (b_mass b) (b_cog b) (b_inertia b)) bs)) s q = Tree.TTrue ts ->
  let n := nr_of_joints (KdlSolver.sv_chain s) in (n <= length q)%nat /\ length ts = n /\
  forall u, length u = n -> derivable_pt_lim (fun t => potential g bs (KdlSolver.sv_chain s) (moving (map KinRep.degToRad (firstn n q)) u t)) 0 (power ts u).
Proof. exact gravity_holds. Qed.
Print Assumptions C135_gravity.
Example C135_gravity_example : solid (KdlSolver.sv_chain rig_solver) /\
  Tree.gravityDyn (dyn_solvers no_vel (V 0 (- (10)) 0) (map (fun b => mk_inertia (b_mass b) (b_cog b) (b_inertia b)) [no_body; bar_body; no_body])) rig_solver [0] = Tree.TTrue [5].
Proof. exact (conj bar_solid bar_gravity). Qed.

(** C136: at rest, and with a force on the tool, told in either frame, the torques balance gravity and the force: the work of all of them together is that of gravity. *)
Theorem C136_force : forall vel g bs s q ftip fr ts, solid (KdlSolver.sv_chain s) -> (length bs <= length (KdlSolver.sv_chain s))%nat ->
  let n := nr_of_joints (KdlSolver.sv_chain s) in
  Tree.invDyn (dyn_solvers vel g (map (fun b => mk_inertia (b_mass b) (b_cog b) (b_inertia b)) bs)) s q (repeat 0 n) (repeat 0 n) ftip fr = Tree.TTrue ts ->
  (n <= length q)%nat /\ length ts = n /\ exists f, chain_fwd_kin (KdlSolver.sv_chain s) (map KinRep.degToRad (firstn n q)) = Some f /\
  forall u p, length u = n -> (forall t, chain_fwd_kin (KdlSolver.sv_chain s) (moving (map KinRep.degToRad (firstn n q)) u t) = Some (p t)) ->
  exists d, velocity_of p 0 d /\
    derivable_pt_lim (fun t => potential g bs (KdlSolver.sv_chain s) (moving (map KinRep.degToRad (firstn n q)) u t)) 0
      (power ts u + wrench_power (base_axes fr f (KinRep.vectorToWrench ftip)) d).
Proof. exact force_balance. Qed.
Print Assumptions C136_force.
Example C136_force_example : solid (KdlSolver.sv_chain rig_solver) /\ KdlSolver.joints_in rig_chain [0] = Some [0] /\
  Tree.invDyn (bar_kdl bar_mass) rig_solver [0] [0] [0] [0; - (7); 0; 0; 0; 0] KdlSolver.BASE_FRAME = Tree.TTrue [9 / 8 * 0 + 5 - - (7) - 0].
Proof. exact (conj bar_solid (conj zero_in (bar_force _ _ _ _ _ _ _ _ zero_in))). Qed.

(** C137: in motion the torques, together with the force on the tool, drive the bodies as they move: d'Alembert's principle. *)
Theorem C137_motion : forall vel g bs s q qd qdd ftip fr ts, solid (KdlSolver.sv_chain s) ->
  Tree.invDyn (dyn_solvers vel g (map (fun b => mk_inertia (b_mass b) (b_cog b) (b_inertia b)) bs)) s q qd qdd ftip fr = Tree.TTrue ts ->
  let n := nr_of_joints (KdlSolver.sv_chain s) in let rad l := map KinRep.degToRad (firstn n l) in
  length ts = n /\ exists f, chain_fwd_kin (KdlSolver.sv_chain s) (rad q) = Some f /\
  forall js vs t, passes js vs t (rad q) (rad qd) (rad qdd) -> drives g bs (KdlSolver.sv_chain s) js t (base_axes fr f (KinRep.vectorToWrench ftip)) ts.
Proof. exact invdyn_drives. Qed.
Print Assumptions C137_motion.
Example C137_motion_example : solid (KdlSolver.sv_chain rig_solver) /\ KdlSolver.joints_in rig_chain [180 / PI] = Some [1] /\
  Tree.invDyn (bar_kdl bar_mass) rig_solver [0] [0] [180 / PI] [0; - (7); 0; 0; 0; 0] KdlSolver.BASE_FRAME = Tree.TTrue [9 / 8 * 1 + 5 - - (7) - 0] /\
  passes [fun s => s * s / 2] [fun s => s] 0 (map (fun x => x * PI / 180) [0]) (map (fun x => x * PI / 180) [0]) (map (fun x => x * PI / 180) [180 / PI]).
Proof. exact (conj bar_solid (conj one_in (conj (bar_force _ _ _ _ _ _ _ _ one_in) bar_passes))). Qed.

(** C137: no other torques do, and there is a motion through any positions, velocities and accelerations. *)
Theorem C137_only : forall g bs c js vs t q v w W ts ts', solid c -> passes js vs t q v w -> length q = nr_of_joints c -> (0 < length c)%nat ->
  length ts = length q -> length ts' = length q -> drives g bs c js t W ts -> drives g bs c js t W ts' -> ts = ts'.
Proof. exact drives_unique. Qed.
Print Assumptions C137_only.
Theorem C137_any : forall q v w, length v = length q -> length w = length q -> exists js vs, passes js vs 0 q v w.
Proof. exact passes_some. Qed.
Print Assumptions C137_any.
Example C137_any_example : passes [fun s => s * s / 2] [fun s => s] 0 (map (fun x => x * PI / 180) [0]) (map (fun x => x * PI / 180) [0]) (map (fun x => x * PI / 180) [180 / PI]).
Proof. exact bar_passes. Qed.
Example C137_only_example : solid rig_chain /\ passes [fun s => s * s / 2] [fun s => s] 0 (map (fun x => x * PI / 180) [0]) (map (fun x => x * PI / 180) [0]) (map (fun x => x * PI / 180) [180 / PI]) /\
  length [0] = nr_of_joints rig_chain /\ (0 < length rig_chain)%nat.
Proof. exact (conj bar_solid (conj bar_passes (conj eq_refl (Nat.lt_0_succ 2)))). Qed.

(** C138: a controller opened from a file holds, under gravity compensation, the robot that the file describes, whatever it has been asked before. *)
Theorem C138_gravity : forall d robot cc sc c s v vel gv g ms n H0 HN h s1 v1 tr s2 v2 h' s3 v3,
  assembled d robot cc sc c s v -> dyn_open vel cc ms gv = Some (dev_kdl d) -> gravity_at gv g ->
  ch_numLinks cc = Some (Z.of_nat n) -> Forall rotary (map (ch_link cc) (seq 0 n)) ->
  matrix_at (ch_H0 cc) H0 -> matrix_at (ch_HN cc) HN -> rigid H0 -> rigid HN ->
  let links := map (fun i => (ch_link cc i, ms i)) (seq 0 n) in Forall weighed links ->
  history c s h s1 -> served d v (trace_of h) v1 -> exec (gcmp c) s1 tr (Done true) s2 -> served d v1 tr v2 ->
  history c s2 h' s3 -> Forall (fun e => lets_go_on (fst (fst e))) h' -> served d v2 (trace_of h') v3 ->
  forall o t b x a, In (o, t, b) h' -> In (x, a) t -> motion x = true ->
  exists q tau, o = OCycle /\ x = SetRefTorques tau /\ joints_read n t q /\ inside c q /\ holds g H0 links q tau.
Proof. exact gcmp_holds. Qed.
Print Assumptions C138_gravity.
Example C138_gravity_example : assembled (bar_dev bar_mass) rig_robot bar_file rig_options rig idle rig_solver /\
  dyn_open no_vel bar_file (fun _ => bar_mass) sideways = Some (dev_kdl (bar_dev bar_mass)) /\ gravity_at sideways (V 0 (- (10)) 0) /\
  ch_numLinks bar_file = Some (Z.of_nat 1) /\ Forall rotary (map (ch_link bar_file) (seq 0 1)) /\
  matrix_at (ch_H0 bar_file) fid /\ matrix_at (ch_HN bar_file) (at_x (1 / 2)) /\ rigid fid /\ rigid (at_x (1 / 2)) /\
  Forall weighed (map (fun i => (ch_link bar_file i, bar_mass)) (seq 0 1)) /\
  history rig idle [] idle /\ served (bar_dev bar_mass) rig_solver (trace_of []) rig_solver /\
  exec (gcmp rig) idle torque_modes (Done true) floating /\ served (bar_dev bar_mass) rig_solver torque_modes rig_solver /\
  history rig floating [(OCycle, bar_float 5, true)] floating /\ Forall (fun e => lets_go_on (fst (fst e))) [(OCycle, bar_float 5, true)] /\
  served (bar_dev bar_mass) rig_solver (trace_of [(OCycle, bar_float 5, true)]) rig_solver /\ In (SetRefTorques [5], yes) (bar_float 5).
Proof. exact bar_held. Qed.

(** C138: not so if the moments of inertia of a link with a mass are left out: the mass is then ignored. *)
Theorem C138_weight_refuted : exists d robot cc sc c s v vel gv g ms n H0 HN tr s2 v2 h s3 v3 q tau,
  assembled d robot cc sc c s v /\ dyn_open vel cc ms gv = Some (dev_kdl d) /\ gravity_at gv g /\
  ch_numLinks cc = Some (Z.of_nat n) /\ Forall rotary (map (ch_link cc) (seq 0 n)) /\
  matrix_at (ch_H0 cc) H0 /\ matrix_at (ch_HN cc) HN /\ rigid H0 /\ rigid HN /\
  let links := map (fun i => (ch_link cc i, ms i)) (seq 0 n) in
  Forall (fun l => lg_dh (fst l) <> None /\ exists k x y z, mg_mass (snd l) = Some k /\ mg_cog (snd l) = Some [x; y; z]) links /\
  exec (gcmp c) s tr (Done true) s2 /\ served d v tr v2 /\
  history c s2 h s3 /\ Forall (fun e => lets_go_on (fst (fst e))) h /\ served d v2 (trace_of h) v3 /\
  (exists t, In (OCycle, t, true) h /\ In (SetRefTorques tau, yes) t /\ joints_read n t q) /\ ~ holds g H0 links q tau.
Proof. exact weight_refuted. Qed.
Print Assumptions C138_weight_refuted.

(** C139: under force control the torques sent drive the robot, through the positions, velocities and accelerations that it told, while it exerts the force asked for with the tool in use. *)
Theorem C139_force : forall d ch v c s vel g bs h s1 v1 a1 a2 a3 a4 a5 a6 tr s2 v2 h' s3 v3,
  solid ch -> opened d ch [] v -> numJoints c = nr_of_joints ch ->
  dev_kdl d = dyn_solvers vel g (map (fun b => mk_inertia (b_mass b) (b_cog b) (b_inertia b)) bs) ->
  history c s h s1 -> served d v (trace_of h) v1 -> exec (forc c [a1; a2; a3; a4; a5; a6]) s1 tr (Done true) s2 -> served d v1 tr v2 ->
  history c s2 h' s3 -> Forall (fun e => lets_go_on (fst (fst e)) /\ no_tool (fst (fst e))) h' -> served d v2 (trace_of h') v3 ->
  forall o t b x a, In (o, t, b) h' -> In (x, a) t -> motion x = true ->
  exists q sp ac tau, o = OCycle /\ x = SetRefTorques tau /\ length tau = numJoints c /\
    joints_read (numJoints c) t q /\ inside c q /\ speeds_read (numJoints c) t sp /\ accelerations_read (numJoints c) t ac /\
    forall js vs now, let rad := map (fun x => x * PI / 180) in passes js vs now (rad q) (rad sp) (rad ac) ->
    drives g bs (KdlSolver.sv_chain v1) js now (KdlRot.Wr (V (- a1) (- a2) (- a3)) (V (- a4) (- a5) (- a6))) tau.
Proof. exact forc_drives. Qed.
Print Assumptions C139_force.
Example C139_force_example : solid rig_chain /\ opened (bar_dev bar_mass) rig_chain [] rig_solver /\ numJoints rig = nr_of_joints rig_chain /\
  dev_kdl (bar_dev bar_mass) = dyn_solvers no_vel (V 0 (- (10)) 0) (map (fun b => mk_inertia (b_mass b) (b_cog b) (b_inertia b)) [no_body; bar_body; no_body]) /\
  history rig idle [] idle /\ served (bar_dev bar_mass) rig_solver (trace_of []) rig_solver /\
  exec (forc rig [0; 7; 0; 0; 0; 0]) idle torque_modes (Done true) lifting /\ served (bar_dev bar_mass) rig_solver torque_modes rig_solver /\
  history rig lifting [(OCycle, bar_push torque, true)] lifting /\
  Forall (fun e => lets_go_on (fst (fst e)) /\ no_tool (fst (fst e))) [(OCycle, bar_push torque, true)] /\
  served (bar_dev bar_mass) rig_solver (trace_of [(OCycle, bar_push torque, true)]) rig_solver /\ In (SetRefTorques [torque], yes) (bar_push torque) /\
  passes [fun s => s * s / 2] [fun s => s] 0 (map (fun x => x * PI / 180) [0]) (map (fun x => x * PI / 180) [0]) (map (fun x => x * PI / 180) [180 / PI]).
Proof. exact bar_pushes. Qed.
