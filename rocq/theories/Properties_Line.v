(** Properties of the movements along a line: movl and movv. *)
From Coq Require Import Reals ZArith List.
From Verif Require Import Kdl KdlRot KinRepSpec AsibotSpec LineSpec Vocab Bcc BccSpec BccKdl BccLineSpec BccFacts2 BccExamples
  BccLineFacts2 BccLineFacts3 BccLineFacts4 BccLineExamples BccLineExamples2.
Import ListNotations.
Open Scope R_scope.
Local Notation length := List.length.
Local Notation on_line := BccLineSpec.on_line.

(** C104: the joint positions that movl sends put every endpoint on its line, where it should be at that time. *)
Theorem C104_on_line : forall c fuel xd s tr s1 h s2 reaches, usePosdMovl c = true -> 0 < duration s -> exec (movl c fuel xd) s tr (Done true) s1 ->
  history c s1 h s2 -> Forall (fun e => lets_go_on (fst (fst e))) h ->
  Forall as_kdl (trace_of h) -> Forall (solves (numJoints c) reaches) (trace_of h) ->
  let k := (length xd / 6)%nat in
  exists from target start, from_to (numJoints c) s xd tr from target /\ In (Now, start) tr /\
  ((forall i, (i < k)%nat -> measurable (pose_at from i) (pose_at target i)) ->
   exists move, (forall i, (i < k)%nat -> on_line (pose_at from i) (pose_at target i) (duration s) (move i)) /\
   forall o t b x a, In (o, t, b) h -> In (x, a) t -> motion x = true ->
     exists q now, o = OCycle /\ x = SetPositions q /\ In (Now, now) t /\ let u := num now - num start in
       (forall i, (i < k)%nat -> u <= line_time (pose_at from i) (pose_at target i) (duration s)) /\
       ((forall i, (i < k)%nat -> regular_log (fM (move i u))) -> reaches q (map (fun i => move i u) (seq 0 k)))).
Proof. exact movl_follows. Qed.
Print Assumptions C104_on_line.
Example C104_example : 0 < duration idle /\ exec (movl rail 0 (row 1)) idle setting_off (Done true) sliding /\
  history rail sliding half_way sliding /\ Forall (fun e => lets_go_on (fst (fst e))) half_way /\
  Forall as_kdl (trace_of half_way) /\ Forall (solves (numJoints rail) on_rails) (trace_of half_way) /\
  from_to 1 idle (row 1) setting_off (row 0) (row 1) /\ (forall i, (i < length (row 1) / 6)%nat -> measurable (pose_at (row 0) i) (pose_at (row 1) i)) /\
  motion (SetPositions [1 / 2]) = true /\ In (SetPositions [1 / 2], yes) (slide 105 0 (1 / 2)).
Proof. exact movl_rail_run. Qed.
(** 
    C105: the last positions are close to the target: sent within [d] seconds of the end, they are at most five times [d] squared away. *)
Theorem C105_near_partial : forall c fuel xd s tr s1 h s2 reaches, usePosdMovl c = true -> 0 < duration s -> exec (movl c fuel xd) s tr (Done true) s1 ->
  history c s1 h s2 -> Forall (fun e => lets_go_on (fst (fst e))) h ->
  Forall as_kdl (trace_of h) -> Forall (solves (numJoints c) reaches) (trace_of h) ->
  let k := (length xd / 6)%nat in
  exists from target start, from_to (numJoints c) s xd tr from target /\ In (Now, start) tr /\
  ((forall i, (i < k)%nat -> measurable (pose_at from i) (pose_at target i)) ->
   forall o t b q a, In (o, t, b) h -> In (SetPositions q, a) t ->
     exists now ps, In (Now, now) t /\ length ps = k /\ let u := num now - num start in
       (Forall (fun p => regular_log (fM p)) ps -> reaches q ps) /\
       forall i d, (i < k)%nat -> line_time (pose_at from i) (pose_at target i) (duration s) - d <= u ->
         norm (vsub (fp (pose_at target i)) (fp (nth i ps fid))) <= 5 * (d * d) /\
         exists axis angle, unit axis /\ 0 <= angle <= 5 * (d * d) /\ fM (pose_at target i) = mm (fM (nth i ps fid)) (Rot2 axis angle)).
Proof. exact movl_near. Qed.
Print Assumptions C105_near_partial.
Example C105_near_example : line_time (pose_at (row 0) 0) (pose_at (row 1) 0) 10 = 10 /\ 10 - 0.02 <= 109.98 - 100 /\ 1 - 0.999992 <= 5 * (0.02 * 0.02).
Proof. exact near_the_end. Qed.
(** C105: success means that the time of one of the lines is over. *)
Theorem C105_end_partial : forall c fuel xd s tr s1 h s2, 0 < duration s -> exec (movl c fuel xd) s tr (Done true) s1 ->
  history c s1 h s2 -> Forall (fun e => watches (fst (fst e))) h -> Forall as_kdl (trace_of h) ->
  currentState s2 = VOCAB_CC_NOT_CONTROLLING -> cmcSuccess s2 = true ->
  let k := (length xd / 6)%nat in
  exists from target start, from_to (numJoints c) s xd tr from target /\ In (Now, start) tr /\
  ((forall i, (i < k)%nat -> measurable (pose_at from i) (pose_at target i)) ->
   exists i o t b now, (i < k)%nat /\ In (o, t, b) h /\ In (Now, now) t /\
     line_time (pose_at from i) (pose_at target i) (duration s) < num now - num start).
Proof. exact movl_ends. Qed.
Print Assumptions C105_end_partial.
Example C105_end_example : 0 < duration idle /\ exec (movl rail 0 (row 1)) idle setting_off (Done true) sliding /\
  history rail sliding to_the_end (set_off sliding) /\ Forall (fun e => watches (fst (fst e))) to_the_end /\ Forall as_kdl (trace_of to_the_end) /\
  currentState (set_off sliding) = VOCAB_CC_NOT_CONTROLLING /\ cmcSuccess (set_off sliding) = true.
Proof. exact movl_rail_end. Qed.
(** C105: the target itself is not sent. *)
Theorem C105_arrival_refuted : exists c fuel xd s tr s1 h s2 start reaches,
  usePosdMovl c = true /\ exec (movl c fuel xd) s tr (Done true) s1 /\ from_to (numJoints c) s xd tr (row 0) xd /\ In (Now, start) tr /\
  measurable (pose_at (row 0) 0) (pose_at xd 0) /\ length xd = 6%nat /\
  history c s1 h s2 /\ Forall as_kdl (trace_of h) /\ Forall (solves (numJoints c) reaches) (trace_of h) /\
  (exists t1 t2 w n1 n2, h = [(OCycle, t1, true); (OCycle, t2, true); (OWait 0 w, [], true)] /\ In (Now, n1) t1 /\ In (Now, n2) t2 /\
     num n1 - num start < line_time (pose_at (row 0) 0) (pose_at xd 0) (duration s) < num n2 - num start /\ num n2 - num n1 <= IZR (cmcPeriodMs s) / 1000) /\
  currentState s2 = VOCAB_CC_NOT_CONTROLLING /\ cmcSuccess s2 = true /\
  (exists q a, In (SetPositions q, a) (trace_of h)) /\ forall q a, In (SetPositions q, a) (trace_of h) -> ~ reaches q [pose_at xd 0].
Proof. exact arrival_refuted. Qed.
Print Assumptions C105_arrival_refuted.
(** C105: with two endpoints, success is told while one of them has nine centimetres to go. *)
Theorem C105_several_refuted : exists c fuel xd s tr s1 h s2 from reaches,
  usePosdMovl c = true /\ exec (movl c fuel xd) s tr (Done true) s1 /\ from_to (numJoints c) s xd tr from xd /\
  (forall i, (i < length xd / 6)%nat -> measurable (pose_at from i) (pose_at xd i)) /\
  history c s1 h s2 /\ Forall as_kdl (trace_of h) /\ Forall (solves (numJoints c) reaches) (trace_of h) /\
  (exists t1 t2 n1 n2, h = [(OCycle, t1, true); (OCycle, t2, true); (OWait 0 0, [], true)] /\ In (Now, n1) t1 /\ In (Now, n2) t2 /\
     num n2 - num n1 <= IZR (cmcPeriodMs s) / 1000) /\
  currentState s2 = VOCAB_CC_NOT_CONTROLLING /\ cmcSuccess s2 = true /\
  (exists q a, In (SetPositions q, a) (trace_of h)) /\
  forall q a ps, In (SetPositions q, a) (trace_of h) -> reaches q ps -> 0.09 <= norm (vsub (fp (pose_at xd 1)) (fp (nth 1 ps fid))).
Proof. exact several_refuted. Qed.
Print Assumptions C105_several_refuted.
(** 
    C106: with velocity commands, the velocity is that of the line, plus the gain times the difference to where the endpoint should be. *)
Theorem C106_steered : forall c fuel xd s tr s1 h s2 moves, let k := (length xd / 6)%nat in
  usePosdMovl c = false -> 0 < duration s -> exec (movl c fuel xd) s tr (Done true) s1 ->
  history c s1 h s2 -> Forall (fun e => lets_go_on (fst (fst e))) h ->
  Forall as_kdl (trace_of h) -> Forall (moves_as_asked (numJoints c) k moves) (trace_of h) ->
  exists from target start, from_to (numJoints c) s xd tr from target /\ In (Now, start) tr /\
  ((forall i, (i < k)%nat -> measurable (pose_at from i) (pose_at target i)) ->
   exists move, (forall i, (i < k)%nat -> on_line (pose_at from i) (pose_at target i) (duration s) (move i)) /\
   forall o t b x a, In (o, t, b) h -> In (x, a) t -> motion x = true ->
     exists w now q cur des e vel, o = OCycle /\ x = VelocityMove w /\ In (Now, now) t /\ joints_read (numJoints c) t q /\
       In (FwdKin q, cur) t /\ ok cur = true /\ In (PoseDiff des (vals cur), e) t /\ let u := num now - num start in
       (forall i, (i < k)%nat -> u <= line_time (pose_at from i) (pose_at target i) (duration s) /\ velocity_of (move i) u (vel i)) /\
       length des = (6 * k)%nat /\ map fp (poses des) = map (fun i => fp (move i u)) (seq 0 k) /\ ((forall i, (i < k)%nat -> regular_log (fM (move i u))) -> poses des = map (fun i => move i u) (seq 0 k)) /\
       moves BASE_FRAME q w (map (fun i => corrected (vel i) (gain s * 1000 / IZR (cmcPeriodMs s)) (twist_at (vals e) i)) (seq 0 k))).
Proof. exact movl_steers. Qed.
Print Assumptions C106_steered.
Example C106_example : usePosdMovl one = false /\ 0 < duration idle /\ exec (movl one 0 (row 1)) idle line_start (Done true) sliding /\
  history one sliding steering sliding /\ Forall (fun e => lets_go_on (fst (fst e))) steering /\
  Forall as_kdl (trace_of steering) /\ Forall (moves_as_asked (numJoints one) 1 slides_at) (trace_of steering) /\
  from_to 1 idle (row 1) line_start (row 0) (row 1) /\ (forall i, (i < length (row 1) / 6)%nat -> measurable (pose_at (row 0) i) (pose_at (row 1) i)) /\
  motion (VelocityMove [0.3]) = true /\ In (VelocityMove [0.3], yes) steer.
Proof. exact movl_one_run. Qed.
(** 
    C107: movv sends the velocity asked for, plus the gain times the difference to where the endpoint should be, for ten units of path. *)
Theorem C107_steered : forall c xd s tr s1 h s2 moves, let k := (length xd / 6)%nat in
  exec (movv c xd) s tr (Done true) s1 ->
  history c s1 h s2 -> Forall (fun e => lets_go_on (fst (fst e))) h ->
  Forall as_kdl (trace_of h) -> Forall (moves_as_asked (numJoints c) k moves) (trace_of h) ->
  (forall i, (i < k)%nat -> visible (twist_at xd i)) ->
  exists from start, starts_at (numJoints c) tr from /\ In (Now, start) tr /\
   forall o t b x a, In (o, t, b) h -> In (x, a) t -> motion x = true ->
     exists w now q cur des e, o = OCycle /\ x = VelocityMove w /\ In (Now, now) t /\ joints_read (numJoints c) t q /\
       In (FwdKin q, cur) t /\ ok cur = true /\ In (PoseDiff des (vals cur), e) t /\
       let u := num now - num start in let there i := going (pose_at from i) (twist_at xd i) u in
       (0 <= u -> (forall i, (i < k)%nat -> u * speed (twist_at xd i) <= 10) ->
        length des = (6 * k)%nat /\ map fp (poses des) = map (fun i => fp (there i)) (seq 0 k) /\ ((forall i, (i < k)%nat -> regular_log (fM (there i))) -> poses des = map there (seq 0 k)) /\
        moves (referenceFrame s) q w (map (fun i => corrected (twist_at xd i) (gain s * 1000 / IZR (cmcPeriodMs s)) (twist_at (vals e) i)) (seq 0 k)) /\
        (Forall tells_equal t -> (forall i, (i < k)%nat -> regular_log (fM (there i))) -> poses (vals cur) = map there (seq 0 k) ->
         moves (referenceFrame s) q w (map (twist_at xd) (seq 0 k)))).
Proof. exact movv_steers. Qed.
Print Assumptions C107_steered.
Example C107_example : exec (movv one (row 1)) idle velocity_start (Done true) gliding /\
  history one gliding cruising gliding /\ Forall (fun e => lets_go_on (fst (fst e))) cruising /\
  Forall as_kdl (trace_of cruising) /\ Forall (moves_as_asked (numJoints one) 1 slides_at) (trace_of cruising) /\
  (forall i, (i < 1)%nat -> visible (twist_at (row 1) i)) /\ starts_at 1 velocity_start (row 0) /\
  (7 - 5) * speed (twist_at (row 1) 0) <= 10 /\ motion (VelocityMove [1.1]) = true /\ In (VelocityMove [1.1], yes) (cruise 7 1.9 2 1 1.1).
Proof. exact movv_one_run. Qed.
(** 
    C108: a robot that moves as asked, in the frame of the base, is told to go on, for ten units of path. *)
Theorem C108_constant_partial : forall c xd s tr s1 h s2 moves, let k := (length xd / 6)%nat in
  exec (movv c xd) s tr (Done true) s1 -> referenceFrame s = BASE_FRAME ->
  history c s1 h s2 -> Forall (fun e => lets_go_on (fst (fst e))) h ->
  Forall as_kdl (trace_of h) -> Forall (moves_as_asked (numJoints c) k moves) (trace_of h) -> Forall tells_equal (trace_of h) ->
  (forall i, (i < k)%nat -> visible (twist_at xd i)) ->
  exists from start, starts_at (numJoints c) tr from /\ In (Now, start) tr /\
   forall o t b w a, In (o, t, b) h -> In (VelocityMove w, a) t ->
     exists now q cur, In (Now, now) t /\ joints_read (numJoints c) t q /\ In (FwdKin q, cur) t /\ ok cur = true /\
       let u := num now - num start in let there i := going (pose_at from i) (twist_at xd i) u in
       (0 <= u -> (forall i, (i < k)%nat -> u * speed (twist_at xd i) <= 10 /\ regular_log (fM (there i))) -> poses (vals cur) = map there (seq 0 k) ->
        moves BASE_FRAME q w (map (twist_at xd) (seq 0 k))).
Proof. exact movv_constant. Qed.
Print Assumptions C108_constant_partial.
Example C108_example : exec (movv one (row 1)) idle velocity_start (Done true) gliding /\ referenceFrame idle = BASE_FRAME /\
  history one gliding in_step gliding /\ Forall (fun e => lets_go_on (fst (fst e))) in_step /\
  Forall as_kdl (trace_of in_step) /\ Forall (moves_as_asked (numJoints one) 1 slides_at) (trace_of in_step) /\ Forall tells_equal (trace_of in_step) /\
  (forall i, (i < 1)%nat -> visible (twist_at (row 1) i)) /\ starts_at 1 velocity_start (row 0) /\ In (VelocityMove [1], yes) (cruise 7 2 2 1 1) /\
  (7 - 5) * speed (twist_at (row 1) 0) <= 10 /\ poses (row 2) = [going (pose_at (row 0) 0) (twist_at (row 1) 0) (7 - 5)] /\
  regular_log (fM (going (pose_at (row 0) 0) (twist_at (row 1) 0) (7 - 5))).
Proof. exact movv_one_in_step. Qed.
(** C108: after ten units of path it is told to go back. *)
Theorem C108_far_refuted : exists c xd s tr s1 t s2 from start now q cur w a moves,
  exec (movv c xd) s tr (Done true) s1 /\ referenceFrame s = BASE_FRAME /\ length xd = 6%nat /\ visible (twist_at xd 0) /\ starts_at (numJoints c) tr from /\ In (Now, start) tr /\
  history c s1 [(OCycle, t, true)] s2 /\ Forall as_kdl t /\ Forall (moves_as_asked (numJoints c) 1 moves) t /\ Forall tells_equal t /\
  In (Now, now) t /\ joints_read (numJoints c) t q /\ In (FwdKin q, cur) t /\ ok cur = true /\
  0 <= num now - num start /\ poses (vals cur) = [going (pose_at from 0) (twist_at xd 0) (num now - num start)] /\
  In (VelocityMove w, a) t /\ (exists v, moves BASE_FRAME q w [v] /\ t_vel v = vscale (-1) (t_vel (twist_at xd 0))) /\ ~ moves BASE_FRAME q w [twist_at xd 0].
Proof. exact movv_far_refuted. Qed.
Print Assumptions C108_far_refuted.
(** C108: with velocities seen from the tool, it is told to go three times as fast. *)
Theorem C108_tool_refuted : exists c xd s tr s1 t s2 from start now q cur des e w a moves,
  exec (movv c xd) s tr (Done true) s1 /\ referenceFrame s = TCP_FRAME /\ length xd = 6%nat /\ visible (twist_at xd 0) /\ t_rot (twist_at xd 0) = vzero /\
  starts_at (numJoints c) tr from /\ In (Now, start) tr /\
  history c s1 [(OCycle, t, true)] s2 /\ Forall as_kdl t /\ Forall (moves_as_asked (numJoints c) 1 moves) t /\ Forall tells_equal t /\
  In (Now, now) t /\ joints_read (numJoints c) t q /\ In (FwdKin q, cur) t /\ ok cur = true /\ 0 <= num now - num start <= 1 /\
  In (PoseDiff des (vals cur), e) t /\ t_vel (twist_at (vals e) 0) = vsub (fp (pose_at des 0)) (fp (pose_at (vals cur) 0)) /\
  pose_at (vals cur) 0 = F (fM (pose_at from 0)) (vadd (fp (pose_at from 0)) (mv (fM (pose_at from 0)) (vscale (num now - num start) (t_vel (twist_at xd 0))))) /\
  In (VelocityMove w, a) t /\ (exists v, moves TCP_FRAME q w [v] /\ t_vel v = vscale 3 (t_vel (twist_at xd 0))) /\ ~ moves TCP_FRAME q w [twist_at xd 0].
Proof. exact movv_tool_refuted. Qed.
Print Assumptions C108_tool_refuted.
(** C108: asked to turn three quarters of a turn per second, it is told to turn the other way. *)
Theorem C108_spin_refuted : exists c xd s tr s1 t s2 from start now q cur w a moves,
  exec (movv c xd) s tr (Done true) s1 /\ referenceFrame s = BASE_FRAME /\ length xd = 6%nat /\ speed (twist_at xd 0) <= 10 /\ starts_at (numJoints c) tr from /\ In (Now, start) tr /\
  history c s1 [(OCycle, t, true)] s2 /\ Forall as_kdl t /\ Forall (moves_as_asked (numJoints c) 1 moves) t /\ Forall tells_equal t /\
  In (Now, now) t /\ joints_read (numJoints c) t q /\ In (FwdKin q, cur) t /\ ok cur = true /\
  num now = num start /\ poses (vals cur) = [pose_at from 0] /\
  In (VelocityMove w, a) t /\ (exists v, moves BASE_FRAME q w [v] /\ t_rot v = vscale (- (1 / 3)) (t_rot (twist_at xd 0))) /\ ~ moves BASE_FRAME q w [twist_at xd 0].
Proof. exact movv_spin_refuted. Qed.
Print Assumptions C108_spin_refuted.
