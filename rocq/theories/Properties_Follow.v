(** The example that drives the left arm of a robot along a line. *)
From Coq Require Import Reals List Bool Lra.
From Verif Require Import Kdl KdlFacts Screw ScrewFacts Trig Subproblems Subproblems IkProblem Builder KinRep IkPoseSpec Follow FollowSpec FollowFacts4 FollowFacts3 FollowFacts5.
Import ListNotations.
Open Scope R_scope.

(** C128: the positions sent leave the tool near the straight line, as long as no warning is printed: every point of the tool is within a small
    distance of where the line puts it, and the fraction of the line only grows, from 0 to 1. *)
Theorem C128_line : forall fuel draws q limits ok f r w x y maxVel duration ins, prepare fuel draws q limits ok = Returns (Some f) -> wrist_follower f r w x y ->
  0 < maxVel -> 0 < duration -> six_values ins ->
  let T := Rmax duration (quickest maxVel (2 / 10) way_length) in
  exists l : R -> R, (forall t, t <= 0 -> l t = 0) /\ (forall t, T <= t -> l t = 1) /\ (forall t, 0 <= l t <= 1) /\ (forall u v, u <= v -> l u <= l v) /\
  forall out k t rep refs, cycles maxVel duration f ins = Some out -> nth_error out k = Some (t, rep) -> warned rep = false -> sent rep = Some refs ->
    exists g, evaluate left_arm (map degToRad refs) = Some g /\ rigid g /\ forall a b c,
      let z := combination w (vsub x w) (vsub y w) a b c in let target := on_line (fo_start f) (l t) in
      dist (carried (fo_poe f) (if fo_rev f then finv g else g) z) (carried (fo_poe f) (if fo_rev f then finv target else target) z) <= wrist_bound (exps (fo_poe f)) r w x y a b c.
Proof. exact on_the_line. Qed.
Print Assumptions C128_line.
Example C128_line_example : exists q start refs, prepare 1000 l_draws q w_limits true = Returns (Some (l_follower (some_limits (-180) 180) start)) /\
  wrist_follower (l_follower (some_limits (-180) 180) start) lr lw lx ly /\ six_values [(0, Some q)] /\
  cycles (5 / 100) 10 (l_follower (some_limits (-180) 180) start) [(0, Some q)] = Some [(0, Rep false (Some refs))].
Proof. exact e_run. Qed.

(** C128: when the line leaves the reach of the arm, positions are sent all the same, which put the tool more than ten centimetres away from the line. *)
Theorem C128_reach_refuted : exists fuel draws q limits f r w x y t rep refs g target,
  inside_limits limits q /\ prepare fuel draws q limits true = Returns (Some f) /\ wrist_follower f r w x y /\
  cycles (5 / 100) 10 f [(t, Some q)] = Some [(t, rep)] /\ sent rep = Some refs /\
  evaluate left_arm (map degToRad refs) = Some g /\ along (fo_start f) (5 / 100) 10 t = Some target /\ 1 / 10 < dist (fp g) (fp target).
Proof. exact out_of_reach. Qed.
Print Assumptions C128_reach_refuted.

(** C129: the limits told by the robot, in degrees, are taken as radians: an elbow with limits of 90 degrees is sent further. *)
Theorem C129_limits_refuted : exists fuel draws q limits f r w x y t rep refs,
  inside_limits limits q /\ prepare fuel draws q limits true = Returns (Some f) /\ wrist_follower f r w x y /\
  cycles (5 / 100) 10 f [(t, Some q)] = Some [(t, rep)] /\ sent rep = Some refs /\ ~ inside_limits limits refs.
Proof. exact limits_exceeded. Qed.
Print Assumptions C129_limits_refuted.

(** C129: what is sent is within half a turn, and within the numbers of the limits if taken in radians. *)
Theorem C129_half_turn : forall fuel draws q limits ok f r w x y maxVel duration ins, prepare fuel draws q limits ok = Returns (Some f) -> wrist_follower f r w x y ->
  0 < maxVel -> 0 < duration -> six_values ins ->
  forall out k t rep refs, cycles maxVel duration f ins = Some out -> nth_error out k = Some (t, rep) -> sent rep = Some refs ->
  length refs = 6%nat /\ (forall v, In v refs -> -180 <= v <= 180) /\
  forall i v lo hi, nth_error refs i = Some v -> limits i = Some (lo, hi) -> lo - kdl_eps <= degToRad v <= hi + kdl_eps.
Proof. exact half_turn. Qed.
Print Assumptions C129_half_turn.
Example C129_half_turn_example : exists q start refs, prepare 1000 l_draws q w_limits true = Returns (Some (l_follower (some_limits (-180) 180) start)) /\
  wrist_follower (l_follower (some_limits (-180) 180) start) lr lw lx ly /\ six_values [(0, Some q)] /\
  cycles (5 / 100) 10 (l_follower (some_limits (-180) 180) start) [(0, Some q)] = Some [(0, Rep false (Some refs))].
Proof. exact e_run. Qed.

(** C130: with less time than the velocity allows, the pose asked is still more than ten centimetres from the goal when the program ends. *)
Theorem C130_ends_refuted : exists fuel draws q limits f r w x y, prepare fuel draws q limits true = Returns (Some f) /\ wrist_follower f r w x y /\
  forall t, t <= 2 -> exists target, along (fo_start f) (5 / 100) 2 t = Some target /\ 1 / 10 < dist (fp target) (fp (goal (fo_start f))).
Proof. exact too_short. Qed.
Print Assumptions C130_ends_refuted.

(** C130: with enough time, the pose asked at the end is the goal, and shortly before the end it is near. *)
Theorem C130_ends : forall fuel draws q limits ok f maxVel duration t ft, prepare fuel draws q limits ok = Returns (Some f) -> 0 < maxVel -> 0 < duration ->
  quickest maxVel (2 / 10) way_length <= duration -> along (fo_start f) maxVel duration t = Some ft -> fM ft = fM (goal (fo_start f)) /\
  (duration <= t -> fp ft = fp (goal (fo_start f))) /\ (t <= duration -> dist (fp ft) (fp (goal (fo_start f))) <= / 10 * ((duration - t) * (duration - t))).
Proof. exact remaining. Qed.
Print Assumptions C130_ends.
Example C130_ends_example : quickest (5 / 100) (2 / 10) way_length <= 10 /\
  exists start, prepare 1000 l_draws [0; 0; 0; 90; 0; 0] w_limits true = Returns (Some (l_follower (some_limits (-180) 180) start)) /\ wrist_follower (l_follower (some_limits (-180) 180) start) lr lw lx ly.
Proof. exact (conj ten_enough bent_prepared). Qed.

(** C131: between any two instants the pose asked moves, without turning, at most with the velocity given. *)
Theorem C131_speed : forall fuel draws q limits ok f maxVel duration u v fu fv, prepare fuel draws q limits ok = Returns (Some f) -> 0 < maxVel -> 0 < duration ->
  along (fo_start f) maxVel duration u = Some fu -> along (fo_start f) maxVel duration v = Some fv -> fM fu = fM fv /\ dist (fp fu) (fp fv) <= maxVel * Rabs (u - v).
Proof. exact asked_speed. Qed.
Print Assumptions C131_speed.
Example C131_speed_example : exists start, prepare 1000 l_draws [0; 0; 0; 90; 0; 0] w_limits true = Returns (Some (l_follower (some_limits (-180) 180) start)) /\ wrist_follower (l_follower (some_limits (-180) 180) start) lr lw lx ly.
Proof. exact bent_prepared. Qed.

(** C132: the program reads beyond its vectors if the robot has seven axes. *)
Theorem C132_seven_refuted : exists fuel draws limits, forall q, length q = 7%nat -> prepare fuel draws q limits true = Undefined.
Proof. exact (ex_intro _ 1000%nat (ex_intro _ l_draws (ex_intro _ w_limits seven_axes))). Qed.
Print Assumptions C132_seven_refuted.

(** C132: the program only starts with robots of six axes, and then every cycle is defined, whatever the robot tells and whenever. *)
Theorem C132_six : forall fuel draws q limits ok f, prepare fuel draws q limits ok = Returns (Some f) -> length q = 6%nat.
Proof. exact six_axes. Qed.
Print Assumptions C132_six.
Theorem C132_defined : forall fuel draws q limits ok f r w x y maxVel duration ins, prepare fuel draws q limits ok = Returns (Some f) -> wrist_follower f r w x y ->
  0 < maxVel -> 0 < duration -> six_values ins -> exists out, cycles maxVel duration f ins = Some out /\ map fst out = map fst ins.
Proof. exact run_defined. Qed.
Print Assumptions C132_defined.
Example C132_defined_example : exists start, prepare 1000 l_draws [0; 0; 0; 90; 0; 0] w_limits true = Returns (Some (l_follower (some_limits (-180) 180) start)) /\ wrist_follower (l_follower (some_limits (-180) 180) start) lr lw lx ly.
Proof. exact bent_prepared. Qed.

(** C133: a robot whose joint values are within its limits is never moved if one of its joints has both limits on one side, beyond a few degrees. *)
Theorem C133_stuck_refuted : exists fuel draws q limits f r w x y, inside_limits limits q /\ prepare fuel draws q limits true = Returns (Some f) /\ wrist_follower f r w x y /\
  forall maxVel duration ins, 0 < maxVel -> 0 < duration -> six_values ins ->
    exists out, cycles maxVel duration f ins = Some out /\ forall k t rep, nth_error out k = Some (t, rep) -> sent rep = None.
Proof. exact stuck. Qed.
Print Assumptions C133_stuck_refuted.

(** C133: with limits beyond the number pi on both sides, positions are sent in each cycle in which the robot tells its own. *)
Theorem C133_moved : forall fuel draws q limits ok f r w x y maxVel duration ins, prepare fuel draws q limits ok = Returns (Some f) -> wrist_follower f r w x y ->
  0 < maxVel -> 0 < duration -> six_values ins -> (forall i lo hi, (i < 6)%nat -> limits i = Some (lo, hi) -> lo <= - PI /\ PI <= hi) ->
  forall out k t rep g, cycles maxVel duration f ins = Some out -> nth_error out k = Some (t, rep) -> nth_error ins k = Some (t, Some g) -> exists refs, sent rep = Some refs.
Proof. exact always_sent. Qed.
Print Assumptions C133_moved.
Example C133_moved_example : (exists start, prepare 1000 l_draws [0; 0; 0; 90; 0; 0] w_limits true = Returns (Some (l_follower (some_limits (-180) 180) start)) /\ wrist_follower (l_follower (some_limits (-180) 180) start) lr lw lx ly) /\
  forall i lo hi, (i < 6)%nat -> w_limits i = Some (lo, hi) -> lo <= - PI /\ PI <= hi.
Proof. exact (conj bent_prepared w_wide). Qed.

(** C134: a robot that hangs straight is sent, at the first instant, half a turn of the elbow away. *)
Theorem C134_jump_refuted : exists fuel draws q limits f r w x y rep refs,
  inside_limits limits q /\ prepare fuel draws q limits true = Returns (Some f) /\ wrist_follower f r w x y /\
  cycles (5 / 100) 10 f [(0, Some q)] = Some [(0, rep)] /\ sent rep = Some refs /\ exists i a b, nth_error q i = Some a /\ nth_error refs i = Some b /\ Rabs (b - a) = 180.
Proof. exact jump. Qed.
Print Assumptions C134_jump_refuted.

(** C134: away from the singular postures, the positions sent at the first instant are those that the robot has. *)
Theorem C134_still : forall fuel draws q limits ok f r w x y maxVel duration t ins, prepare fuel draws q limits ok = Returns (Some f) -> wrist_follower f r w x y ->
  0 < maxVel -> 0 < duration -> six_values ins -> t <= 0 ->
  regular (exps (fo_poe f)) r w x (if fo_rev f then rev_neg (map degToRad q) else map degToRad q) ->
  (forall i v lo hi, nth_error q i = Some v -> limits i = Some (lo, hi) -> lo <= degToRad v <= hi) ->
  exists warn rest, cycles maxVel duration f ((t, Some q) :: ins) = Some ((t, Rep warn (Some q)) :: rest).
Proof. exact no_jump. Qed.
Print Assumptions C134_still.
Example C134_still_example : (exists start, prepare 1000 l_draws [0; 0; 0; 90; 0; 0] w_limits true = Returns (Some (l_follower (some_limits (-180) 180) start)) /\ wrist_follower (l_follower (some_limits (-180) 180) start) lr lw lx ly) /\
  regular (exps lp) lr lw lx (rev_neg (map degToRad [0; 0; 0; 90; 0; 0])) /\
  forall i v lo hi, nth_error [0; 0; 0; 90; 0; 0] i = Some v -> w_limits i = Some (lo, hi) -> lo <= degToRad v <= hi.
Proof. exact (conj bent_prepared (conj bent_regular bent_inside)). Qed.
