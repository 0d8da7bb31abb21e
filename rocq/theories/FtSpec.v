(** What the theorems about ftCompensation are stated in. *)
From Coq Require Import Reals List Bool String.
From Verif Require Import Kdl KdlRot KinRep Ft.
Import ListNotations.
Open Scope R_scope.
Local Notation length := List.length.

Definition wadd (a b : wrench) : wrench := Wr (vadd (w_force a) (w_force b)) (vadd (w_torque a) (w_torque b)).

(** Orientation of the TCP in a pose answered by the controller (x, y, z and a scaled rotation axis) *)
Definition orientation (x : list R) : mat := fM (vectorToFrame x).

(** The wrench that a tool of weight [weight] (in the base frame) hanging from the point [com] of the TCP frame exerts
    on the TCP, in the TCP frame, when the TCP has orientation [m] *)
Definition gravity (m : mat) (com weight : vec) : wrench :=
  let f := mv (mT m) weight in Wr f (cross com f).

(** How the sensor is mounted on the TCP: angles in degrees about the fixed x, y, z axes *)
Definition mounted (v : ft_val) (m : mat) : Prop :=
  match v with
  | Absent => m = mid
  | Numbers [r; p; y] => m = mm (RotZ (y * (PI / 180))) (mm (RotY (p * (PI / 180))) (RotX (r * (PI / 180))))
  | _ => False
  end.

(** The six numbers read by a sensor mounted with rotation [m] when the wrench [w] (in the TCP frame) acts on it *)
Definition senses (m : mat) (w : wrench) : list R :=
  let f := mv (mT m) (w_force w) in let t := mv (mT m) (w_torque w) in
  [vx f; vy f; vz f; vx t; vy t; vz t].

(** [r] is [f] shortened by [band] and multiplied by [gain] *)
Definition shrunk (f : vec) (band gain : R) (r : vec) : Prop :=
  (norm f <= band -> r = vzero) /\
  (band < norm f -> r = vscale (gain * (norm f - band) / norm f) f /\ norm r = Rabs gain * (norm f - band)).

(** The command that carries a wrench *)
Definition sent (twist_mode : bool) (f t : vec) : ft_cmd :=
  let v := [vx f; vy f; vz f; vx t; vy t; vz t] in if twist_mode then FtTwist v else FtWrench v.

(** A tool given in the configuration *)
Definition with_tool (o : ft_options) (com weight : vec) : Prop :=
  o_tool_com o = Numbers [vx com; vy com; vz com] /\ o_tool_weight o = Numbers [vx weight; vy weight; vz weight].

(** A cycle in which the robot is at [x] and the only wrench besides the weight of the tool and the bias of the
    sensor is [contact] *)
Definition feels (m : mat) (bias : wrench) (com weight : vec) (i : ft_input) (x : list R) (contact : wrench) : Prop :=
  i_measure i = Some (senses m (wadd (wadd bias (gravity (orientation x) com weight)) contact)) /\
  i_stat_tool i = Some x.

(** The command is the answer to the contact alone *)
Definition answers (twist_mode : bool) (g : ft_gains) (contact : wrench) (c : ft_cmd) : Prop :=
  exists f t, c = sent twist_mode f t /\
    shrunk (w_force contact) (forceDeadband g) (linGain g) f /\
    shrunk (w_torque contact) (torqueDeadband g) (rotGain g) t.

(** Everything but the sensor is fine: the module reaches its working state if the wait for the sensor lets it *)
Definition otherwise_fine (o : ft_options) (e : ft_env) : Prop :=
  (o_mode o = "twist" \/ o_mode o = "wrench")%string /\ (o_mode o = "twist"%string -> o_impedance o = false) /\
  (exists m, mounted (o_sensor_rpy o) m) /\ e_found e = true /\ (exists l, e_measure e = Some l /\ (6 <= length l)%nat) /\
  (o_tool_com o = Absent \/ exists com weight, with_tool o com weight) /\
  e_device e = true /\ e_params e <> None /\ e_preset e = true /\ e_frame e = true /\
  e_stat_tool e <> None /\ e_stat_init e <> None /\ e_start e = true.

Definition starts (r : list ft_cmd * ft_res (ft_cfg * ft_state)) : Prop := exists cs, snd r = Done cs.

(** Motion commands and their kind *)
Definition is_motion (c : ft_cmd) : bool := match c with FtTwist _ | FtWrench _ => true | _ => false end.
Definition of_kind (twist_mode : bool) (c : ft_cmd) : bool := match c with FtTwist _ => twist_mode | FtWrench _ => negb twist_mode | _ => false end.

(** Force, in the base frame, that a wrench command asks for when the TCP is at [x] and commands are in the TCP frame *)
Definition base_force (x : list R) (c : ft_cmd) : vec :=
  match c with FtWrench (a :: b :: c :: _) => mv (orientation x) (V a b c) | _ => vzero end.
Definition position (x : list R) : vec := fp (vectorToFrame x).
