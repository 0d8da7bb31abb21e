(** What the properties of movements along a line talk about. *)
From Coq Require Import Reals ZArith List Bool.
From Verif Require Import Kdl KdlRot KinRepSpec AsibotSpec LineSpec Vocab Bcc BccSpec.
Import ListNotations.
Open Scope R_scope.

(** the pose of the [i]-th endpoint written in [x]: six numbers per endpoint, a position and a rotation vector *)
Definition pose_at (x : list R) (i : nat) : frame :=
  let k j := nth (6 * i + j) x 0 in F (rot_of (V (k 3%nat) (k 4%nat) (k 5%nat))) (V (k 0%nat) (k 1%nat) (k 2%nat)).
Definition poses (x : list R) : list frame := map (pose_at x) (seq 0 (length x / 6)).

(** the time a line takes: the one asked for, or what the limits of 10 metres or radians per second and per second squared demand *)
Definition line_time (a b : frame) (seconds : R) : R := Rmax seconds (least_time (path_length a b)).
(** [q] goes from [a] to [b] along the straight line, from the time 0 on, in this time, and at a time [u] before the end lacks at
    most five units of path per second squared *)
Definition on_line (a b : frame) (seconds : R) (q : R -> frame) : Prop :=
  let T := line_time a b seconds in
  exists p r, straight a b p /\ progress r T /\ gentle (fun t => p (r t)) (10 * pace a b T) (10 * (pace a b T * pace a b T)) /\
    (forall t, t <= T -> (1 - r t) * path_length a b <= 5 * ((T - t) * (T - t))) /\ forall t, q t = p (r t).

(** commands that neither start a movement nor stream one *)
Definition lets_go_on (o : op) : Prop :=
  match o with
  | OMovj _ | ORelj _ | OMovl _ _ | OMovv _ | OGcmp | OForc _ | OPose _ | OTwist _ | OWrench _ => False
  | _ => True
  end.

(** [q] are the positions of the [n] joints that the robot told *)
Definition joints_read (n : nat) (tr : list event) (q : list R) : Prop :=
  exists a, In (GetEncoders, a) tr /\ ok a = true /\ length q = n /\ forall i, (i < n)%nat -> nth i q 0 = nth i (vals a) 0.
(** during movl, where the solver says that the endpoints are, and the target seen from the base *)
Definition from_to (n : nat) (s : st) (xd : list R) (tr : list event) (from target : list R) : Prop :=
  (exists q a, joints_read n tr q /\ In (FwdKin q, a) tr /\ ok a = true /\ from = vals a) /\
  (referenceFrame s <> TCP_FRAME -> target = xd) /\
  (referenceFrame s = TCP_FRAME -> exists a, In (ChangeOrigin xd from, a) tr /\ ok a = true /\ target = vals a).

(** the solver finds joint positions [q] that put the endpoints at the poses asked for: [reaches q poses] *)
Definition solves (n : nat) (reaches : list R -> list frame -> Prop) (e : event) : Prop :=
  match e with
  | (InvKin x _ f, a) => f = BASE_FRAME -> ok a = true -> length (vals a) = n /\ reaches (vals a) (poses x)
  | _ => True
  end.

(** the velocity of the [i]-th endpoint written in [x]: a linear and an angular velocity *)
Definition twist_at (x : list R) (i : nat) : KdlRot.twist :=
  let k j := nth (6 * i + j) x 0 in Tw (V (k 0%nat) (k 1%nat) (k 2%nat)) (V (k 3%nat) (k 4%nat) (k 5%nat)).
Definition twists (x : list R) : list KdlRot.twist := map (twist_at x) (seq 0 (length x / 6)).
(** [a] + [k] [b] *)
Definition corrected (a : KdlRot.twist) (k : R) (b : KdlRot.twist) : KdlRot.twist :=
  Tw (vadd (t_vel a) (vscale k (t_vel b))) (vadd (t_rot a) (vscale k (t_rot b))).

(** the solver finds velocities of the [n] joints that move the [k] endpoints as asked: [moves frame q w velocities]; it tells [k] pose
    differences of six numbers each *)
Definition moves_as_asked (n k : nat) (moves : Z -> list R -> list R -> list KdlRot.twist -> Prop) (e : event) : Prop :=
  match e with
  | (DiffInvKin q xd f, a) => ok a = true -> length (vals a) = n /\ (length xd = (6 * k)%nat -> moves f q (vals a) (twists xd))
  | (PoseDiff _ _, a) => length (vals a) = (6 * k)%nat
  | _ => True
  end.

(** where the solver says that the endpoints are when the movement starts *)
Definition starts_at (n : nat) (tr : list event) (from : list R) : Prop :=
  exists q a, joints_read n tr q /\ In (FwdKin q, a) tr /\ ok a = true /\ from = vals a.
(** the solver tells no difference between equal poses *)
Definition tells_equal (e : event) : Prop :=
  match e with
  | (PoseDiff x y, a) => poses x = poses y -> forall j, nth j (vals a) 0 = 0
  | _ => True
  end.

(** commands that do not end a movement either *)
Definition watches (o : op) : Prop := match o with OStop | OWait _ _ => False | _ => lets_go_on o end.
