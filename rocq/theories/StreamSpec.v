(** What the theorems about streamingDeviceController are stated in. *)
From Coq Require Import Reals List Bool String ZArith.
From Verif Require Import Kdl KdlRot KdlRotFacts KinRep Vocab Stream.
Import ListNotations.
Open Scope R_scope.
Local Notation S := Datatypes.S.
Local Notation length := List.length.

(** The commands of one kind, oldest first *)
Definition twists (cs : list s_cmd) : list (list R) := flat_map (fun c => match c with STwist v => [v] | _ => [] end) cs.
Definition poses (cs : list s_cmd) : list (list R) := flat_map (fun c => match c with SPose v => [v] | _ => [] end) cs.
Definition acts (cs : list s_cmd) : list Z := flat_map (fun c => match c with SAct a => [a] | _ => [] end) cs.

Definition nonzero (v : list R) : Prop := Exists (fun x => x <> 0) v.
(** The robot is moving: the last velocity it was given is not zero *)
Definition moving (cs : list s_cmd) : Prop := nonzero (last (twists cs) []).
(** No stop is sent to a robot that was not moving *)
Fixpoint stops_once_from (was_moving : Prop) (vs : list (list R)) : Prop :=
  match vs with
  | [] => True
  | v :: vs => (~ nonzero v -> was_moving) /\ stops_once_from (nonzero v) vs
  end.
Definition stops_once (cs : list s_cmd) : Prop := stops_once_from False (twists cs).

(** The six axes, as they are called in the configuration *)
Definition axis_label (i : nat) : string := nth i ["x"; "y"; "z"; "rotx"; "roty"; "rotz"]%string ""%string.
Definition is_fixed (names : option (list string)) (i : nat) : Prop :=
  match names with None => False | Some l => In (axis_label i) l end.

(** The SpaceNavigator gives six axes and perhaps two buttons *)
Definition acquired (r : list R) : Prop := length r = 6%nat \/ length r = 8%nat.
(** Some proximity sensor is above a threshold (readings below zero count as zero) *)
Definition near (thr : Z) (b : option (list R)) : Prop := exists l, b = Some l /\ l <> [] /\ IZR thr < fold_right Rmax 0 l.

(** [v] is the reading [r] divided by [k], with zeros on the fixed axes *)
Definition scaled (names : option (list string)) (k : R) (r v : list R) : Prop :=
  length v = 6%nat /\
  forall i, (i < 6)%nat -> (is_fixed names i -> nth i v 0 = 0) /\ (~ is_fixed names i -> nth i v 0 = nth i r 0 / k).
(** Some axis that is not fixed is pushed *)
Definition pushed (names : option (list string)) (r : list R) : Prop :=
  exists i, (i < 6)%nat /\ ~ is_fixed names i /\ nth i r 0 <> 0.

(** A controller with a SpaceNavigator and no centroid port, as configured *)
Definition spnav_controller (pose : bool) (gain : R) (names : option (list string)) (n : init_env)
  (scaling : R) (prox : bool) (high low : Z) (nolow : bool) (k : centroid) (c : sdc) : Prop :=
  exists cs d, spnav_initialize pose gain (configureFixedAxes names) n = (cs, Some d) /\
    c = configured_sdc (DSpnav d) scaling prox high low nolow false k.

(** The gripper: what is sent, given the two buttons (1 when pressed) and the last command sent *)
Definition gripper (close open : R) (last_act : option Z) (sent : list Z) : Prop :=
  (close = 1 -> sent = [VOCAB_CC_ACTUATOR_CLOSE_GRIPPER]) /\
  (close <> 1 -> open = 1 -> sent = [VOCAB_CC_ACTUATOR_OPEN_GRIPPER]) /\
  (close <> 1 -> open <> 1 ->
     (last_act = Some VOCAB_CC_ACTUATOR_CLOSE_GRIPPER \/ last_act = Some VOCAB_CC_ACTUATOR_OPEN_GRIPPER -> sent = [VOCAB_CC_ACTUATOR_STOP_GRIPPER]) /\
     (last_act = None \/ last_act = Some VOCAB_CC_ACTUATOR_STOP_GRIPPER -> sent = [])).
Definition last_act (cs : list s_cmd) : option Z := hd_error (rev (acts cs)).

(** What the readings are divided by in a cycle, besides the scaling *)
Definition slowdown (prox nolow : bool) (low : Z) (b : option (list R)) (f : R) : Prop :=
  let slow := prox = true /\ nolow = false /\ near low b in (slow -> f = 2) /\ (~ slow -> f = 1).

(** Pose mode: where the commanded pose goes in one cycle that is not blocked *)
Definition advanced (names : option (list string)) (k : R) (x r y : list R) : Prop :=
  length y = 6%nat /\
  forall i, (i < 6)%nat -> (is_fixed names i -> nth i y 0 = nth i x 0) /\ (~ is_fixed names i -> nth i y 0 = nth i x 0 + k * nth i r 0).

(** ** The centroid handler *)
Definition lin (v : list R) : vec := V (nth 0 v 0) (nth 1 v 0) (nth 2 v 0).
Definition ang (v : list R) : vec := V (nth 3 v 0) (nth 4 v 0) (nth 5 v 0).
(** [w] moves along the optical axis as much as [v] does, does not turn around it, and turns it towards the centroid:
    the optical axis (third column of [m]) moves along the two axes of the image, one tenth of the centroid per second *)
Definition steered (m : mat) (cx cy : R) (v w : list R) : Prop :=
  let x := mv m (V 1 0 0) in let y := mv m (V 0 1 0) in let z := mv m (V 0 0 1) in
  length w = 6%nat /\
  lin w = vscale (dot (lin v) z) z /\
  dot (ang w) z = 0 /\
  cross (ang w) z = vadd (vscale (cx / 10) x) (vscale (cy / 10) y).
(** Centroids for which KDL gives back the rotation it was built from: in the centre, or neither too near it nor too far *)
Definition clear_centroid (cx cy : R) : Prop :=
  let n := norm (V cx cy 0) in
  (cx = 0 /\ cy = 0) \/ (kdl_eps <= n /\ n / 10 < PI /\ kdl_eps <= sin (n / 10)).
(** The last centroid seen and when, given the inputs of the cycles, oldest first: cycles without a reading and cycles stopped
    by an obstacle do not look at the port *)
Definition looks (prox : bool) (high : Z) (i : u_in) : Prop := acquired (u_reading i) /\ ~ (prox = true /\ near high (u_prox i)).
Inductive seen (prox : bool) (high : Z) (k : centroid) : list u_in -> R * R -> R -> Prop :=
| seen_none : seen prox high k [] (ct_last k) (ct_time k)
| seen_now : forall is i x y, looks prox high i -> u_bottle i = Some [x; y] -> seen prox high k (is ++ [i]) (x, y) (u_now i)
| seen_before : forall is i c t, ~ looks prox high i \/ (forall x y, u_bottle i <> Some [x; y]) -> seen prox high k is c t -> seen prox high k (is ++ [i]) c t.
(** The centroid in force in a cycle: the one that arrives in it or, when nothing arrives, the last one if it is recent *)
Definition in_force (prox : bool) (high : Z) (k : centroid) (is : list u_in) (i : u_in) (c : R * R) : Prop :=
  (exists x y, u_bottle i = Some [x; y] /\ c = (x, y)) \/
  (u_bottle i = None /\ exists t, seen prox high k is c t /\ u_now i - t <= ct_perm k).

(** ** The Leap Motion sensor *)
(** how far the hand has gone along an axis since the first reading, divided by [k]; nothing along a fixed axis *)
Definition moved (names : option (list string)) (k : R) (first r : list R) (i : nat) (v : R) : Prop :=
  (is_fixed names i -> v = 0) /\ (~ is_fixed names i -> v = (nth i r 0 - nth i first 0) / k).
(** [y] is the pose that the hand asks for: the initial pose [x0] moved as the hand has moved since the first reading, seen
    in the Leap frame [e]. Readings are in mm and radians. A rotation needs the three rotation axes free. *)
Definition hand_pose (names : option (list string)) (e : mat) (x0 : list R) (k : R) (first r y : list R) : Prop :=
  let m := mm (rot_of (ang x0)) e in
  length y = 6%nat /\
  (exists a b c, moved names (1000 * k) first r 0 a /\ moved names (1000 * k) first r 1 b /\ moved names (1000 * k) first r 2 c /\
     lin y = vadd (lin x0) (mv m (V a b c))) /\
  exists h, (~ is_fixed names 3 /\ ~ is_fixed names 4 /\ ~ is_fixed names 5 ->
               h = RPY (nth 3 r 0 - nth 3 first 0) (nth 4 r 0 - nth 4 first 0) (nth 5 r 0 - nth 5 first 0)) /\
            (is_fixed names 3 \/ is_fixed names 4 \/ is_fixed names 5 -> h = mid) /\
            let t := mm m (mm h (mT e)) in good_log t -> rot_of (ang y) = t.
(** the position in a pose *)
Definition lin_list (y : list R) : list R := [vx (lin y); vy (lin y); vz (lin y)].
(** A controller with a Leap Motion sensor, as configured; [e] is the orientation of the sensor *)
Definition leap_controller (pose : bool) (names : option (list string)) (e : mat) (x0 first : list R)
  (scaling : R) (prox : bool) (high low : Z) (nolow : bool) (k : centroid) (c : sdc) : Prop :=
  exists rpy n cs d, leap_initialize pose (configureFixedAxes names) rpy n first = (cs, Some d) /\
    n_stat n = Some x0 /\ length x0 = 6%nat /\ rotation_matrix e /\ (match rpy with Some m => m | None => mid end) = e /\
    c = configured_sdc (DLeap d) scaling prox high low nolow false k.

(** ** The Wiimote: two accelerations, buttons A and B, and the button that turns roll into yaw *)
(** forwards with A, backwards with B, neither with both; and turning as the accelerations say *)
Definition wii_twist (step k : R) (r : list R) (cs : list s_cmd) : Prop :=
  exists z, ((nth 2 r 0 = 1 /\ nth 3 r 0 <> 1 /\ z = step) \/ (nth 2 r 0 <> 1 /\ nth 3 r 0 = 1 /\ z = - step) \/ (nth 2 r 0 = 1 /\ nth 3 r 0 = 1 /\ z = 0)) /\
    (nth 4 r 0 = 1 -> cs = [STwist [0; 0; z; 0; - nth 1 r 0 / k; nth 0 r 0 / k]]) /\
    (nth 4 r 0 <> 1 -> cs = [STwist [0; 0; z; nth 0 r 0 / k; - nth 1 r 0 / k; 0]]).
