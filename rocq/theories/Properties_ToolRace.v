(** The solvers used by several threads. *)
From Coq Require Import Reals List Bool Arith.
From Verif Require Import Kdl KdlRot Trig KinRep KdlSolver Ft Tree Asibot AsibotSpec ToolRace ToolRaceSpec AsibotRace AsibotRaceSpec.
From Verif Require KdlSolverExamples ToolRaceFacts2 ToolRaceFacts3 ToolRaceExamples AsibotExamples AsibotRaceFacts AsibotRaceExamples.
Import ListNotations.
Open Scope R_scope.
Local Notation length := List.length.
Import KdlSolverExamples ToolRaceExamples.

(** C144: while other threads add tools, a question about positions or velocities is answered as at some instant between its beginning and its end.
    Missing: taking the tools off, and the questions about forces. *)
Theorem C144_kinematic_partial : forall ik k strict s threads x ts1 ts2 w1 w2 r, sized ik k -> Forall (Forall adds) threads -> Forall changing ts1 ->
  w1 = play strict (sv_original s) ts1 (begin (sv_chain s) threads (code ik k x)) -> w2 = play strict (sv_original s) ts2 w1 ->
  kinematic x -> answered w2 = Some r -> at_an_instant ik k s x w1 w2 r.
Proof. exact ToolRaceFacts3.kinematic_told. Qed.
Print Assumptions C144_kinematic_partial.
Example C144_kinematic_partial_example : sized no_ik light /\ Forall (Forall adds) two /\
  exists r, answered (play true crank_chain some_turns (begin crank_chain two (code no_ik light (FwdKin [0])))) = Some (TTrue r).
Proof. exact asked_kinematic. Qed.

(** C144: the torques against gravity are those of an instant, or the method returns false.
    Missing: the false should not be there, and a read of the number of segments while it changes, undefined for the language, is taken as one of the two values. *)
Theorem C144_gravity_partial : forall ik k s threads q ts1 ts2 w1 w2 r, sized ik k -> Forall (Forall adds) threads -> Forall changing ts1 ->
  w1 = play false (sv_original s) ts1 (begin (sv_chain s) threads (code ik k (Gravity q))) -> w2 = play false (sv_original s) ts2 w1 ->
  answered w2 = Some r -> r = TFalse \/ at_an_instant ik k s (Gravity q) w1 w2 r.
Proof. exact ToolRaceFacts3.gravity_told. Qed.
Print Assumptions C144_gravity_partial.
Example C144_gravity_partial_example : sized no_ik light /\ Forall (Forall adds) [[Append plain]] /\ exists r, answered (play false crank_chain late (begin crank_chain [[Append plain]] (code no_ik light (Gravity [0])))) = Some r.
Proof. exact asked_weight. Qed.

(** C144: with forces on the tool, the torques are those of an instant, or the method returns false or is undefined. Missing: those two should not be there. *)
Theorem C144_forces_partial : forall ik k strict s threads q qd qdd f fr ts1 ts2 w1 w2 r, sized ik k -> Forall (Forall adds) threads -> Forall changing ts1 ->
  w1 = play strict (sv_original s) ts1 (begin (sv_chain s) threads (code ik k (InvDyn q qd qdd f fr))) -> w2 = play strict (sv_original s) ts2 w1 ->
  answered w2 = Some r -> r = TUndef \/ r = TFalse \/ at_an_instant ik k s (InvDyn q qd qdd f fr) w1 w2 r.
Proof. exact ToolRaceFacts3.forces_told. Qed.
Print Assumptions C144_forces_partial.
Example C144_forces_partial_example : sized no_ik light /\ exists r, answered (play true crank_chain (repeat Asker 13 ++ Changer 0 :: repeat Asker 3) (begin (sv_chain turned_solver) [[Append plain]] (code no_ik light pushing))) = Some (TTrue r).
Proof. exact asked_forces. Qed.

(** C144: while the tools are taken off, the pose may be that of no robot at all: true, and the pose of the base. *)
Theorem C144_pose_refuted : exists ik k s threads x ts w p, sized ik k /\ own_joints s /\
  w = play false (sv_original s) ts (begin (sv_chain s) threads (code ik k x)) /\ (exists q, x = FwdKin q) /\ answered w = Some (TTrue p) /\
  ~ at_an_instant ik k s x (begin (sv_chain s) threads (code ik k x)) w (TTrue p).
Proof. exact pose_refuted. Qed.
Print Assumptions C144_pose_refuted.

(** C144: that reading of the number of joints, out of the lock, is undefined for the language. *)
Theorem C144_undefined_refuted : exists ik k s threads x ts w, sized ik k /\ own_joints s /\
  w = play true (sv_original s) ts (begin (sv_chain s) threads (code ik k x)) /\ kinematic x /\ answered w = Some TUndef /\
  ~ at_an_instant ik k s x (begin (sv_chain s) threads (code ik k x)) w TUndef.
Proof. exact undefined_refuted. Qed.
Print Assumptions C144_undefined_refuted.

(** C144: a tool added by another thread makes the torques against gravity fail. *)
Theorem C144_gravity_refuted : exists ik k s threads x ts w, sized ik k /\ own_joints s /\ Forall (Forall adds) threads /\
  w = play true (sv_original s) ts (begin (sv_chain s) threads (code ik k x)) /\ (exists q, x = Gravity q) /\ answered w = Some TFalse /\
  ~ at_an_instant ik k s x (begin (sv_chain s) threads (code ik k x)) w TFalse.
Proof. exact gravity_refuted. Qed.
Print Assumptions C144_gravity_refuted.

(** C144: a tool changed for another one by another thread makes the torques wrong, and the method returns true. *)
Theorem C144_forces_refuted : exists ik k s threads x ts w t, sized ik k /\ own_joints s /\
  w = play true (sv_original s) ts (begin (sv_chain s) threads (code ik k x)) /\ (exists q qd qdd f, x = InvDyn q qd qdd f KdlSolver.BASE_FRAME) /\ answered w = Some (TTrue t) /\
  ~ at_an_instant ik k s x (begin (sv_chain s) threads (code ik k x)) w (TTrue t).
Proof. exact forces_refuted. Qed.
Print Assumptions C144_forces_refuted.

(** C145: whatever the turns of the threads, once all their changes are made the chain is the one that the same changes give one after the other, those of each thread in its order. *)
Theorem C145_serial : forall strict s threads p ts w, play strict (sv_original s) ts (begin (sv_chain s) threads p) = w -> all_made w ->
  shuffles threads (w_history w) /\ w_mem w = at_rest (sv_chain (fold_left change (map snd (w_history w)) s)).
Proof. exact ToolRaceFacts2.serial. Qed.
Print Assumptions C145_serial.
Example C145_serial_example : let w := play true crank_chain (some_turns ++ repeat (Changer 0) 3) (begin crank_chain two (code no_ik light (FwdKin [0]))) in
  all_made w /\ begun w = [Append turned; Append plain].
Proof. exact two_example. Qed.

(** C146: the solver of ASIBOT, while one other thread changes the tool, gives the pose, and the joints for a pose in the frame of the base, as at an instant of the query.
    Missing: poses in the frame of the tool, and several threads that change it. *)
Theorem C146_instant_partial : forall svd s os x ts1 ts2 w1 w2 r, Forall a_changing ts1 ->
  a_play ts1 (a_begin s [os] (a_code svd s x)) = Some w1 -> a_play ts2 w1 = Some w2 -> a_query w2 = Answer r ->
  exists n s', (made os w1 <= n <= made os w2)%nat /\ a_after s (firstn n os) = Some s' /\ r = a_alone svd s' x.
Proof. exact AsibotRaceFacts.asibot_instant. Qed.
Print Assumptions C146_instant_partial.
Example C146_instant_partial_example : exists w r, a_play [AChanger 0; AAsker; AChanger 0] (a_begin AsibotExamples.s1 [[AAppend AsibotRaceExamples.one_up]] (a_code AsibotExamples.svd0 AsibotExamples.s1 (APose AsibotExamples.qa))) = Some w /\ a_query w = Answer r.
Proof. exact AsibotRaceExamples.pose_while_changed. Qed.

(** C146: in the frame of the tool, the answer may be that of no instant: out of reach, when staying in place is asked for. *)
Theorem C146_torn_refuted : exists svd s os xd guess ts w r, svd_ok svd /\ well_made s /\
  a_play ts (a_begin s [os] (a_invKin svd s xd guess TCP_FRAME)) = Some w /\ a_query w = Answer r /\
  forall n s', a_after s (firstn n os) = Some s' -> r <> Asibot.invKin svd s' xd guess TCP_FRAME.
Proof. exact AsibotRaceExamples.tcp_refuted. Qed.
Print Assumptions C146_torn_refuted.

(** C146: of two tools added at once by two threads one may be lost: the pose is not that of either order. *)
Theorem C146_lost_refuted : exists svd s os1 os2 q ts w s' x y, svd_ok svd /\ well_made s /\
  a_play ts (a_begin s [os1; os2] (Answer None)) = Some w /\ a_all_made w /\
  a_after s (os1 ++ os2) = Some s' /\ a_after s (os2 ++ os1) = Some s' /\ Asibot.fwdKin svd s' q = Some x /\ Asibot.fwdKin svd (with_tcp s (a_tcp w)) q = Some y /\ x <> y.
Proof. exact AsibotRaceExamples.lost_refuted. Qed.
Print Assumptions C146_lost_refuted.
