(** What the properties of the single commands of the Cartesian controller talk about. *)
From Coq Require Import Reals ZArith List Bool.
From Verif Require Import Kdl KdlRot Vocab Bcc BccSpec BccLineSpec.
Import ListNotations.
Open Scope R_scope.
Local Notation length := List.length.

(** [v] are the speeds, or the accelerations, of the [n] joints that the robot told *)
Definition speeds_read (n : nat) (tr : list event) (v : list R) : Prop :=
  exists a, In (GetEncoderSpeeds, a) tr /\ ok a = true /\ length v = n /\ forall i, (i < n)%nat -> nth i v 0 = nth i (vals a) 0.
Definition accelerations_read (n : nat) (tr : list event) (v : list R) : Prop :=
  exists a, In (GetEncoderAccelerations, a) tr /\ ok a = true /\ length v = n /\ forall i, (i < n)%nat -> nth i v 0 = nth i (vals a) 0.

(** the force opposite to [f] *)
Definition opposite (f e : list R) : Prop := length e = length f /\ forall j, nth j e 0 = - nth j f 0.
(** standing still *)
Definition still (n : nat) : list R := repeat 0 n.

(** the solver computes the torques with which the robot, in the joint positions [q] and moving with the speeds [v], accelerates with
    [w] under gravity and the external forces [f] on its endpoints, told in the frame [frame]: [balances frame q v w f torques] *)
Definition dynamics (n : nat) (balances : Z -> list R -> list R -> list R -> list R -> list R -> Prop) (e : event) : Prop :=
  match e with
  | (InvDyn q, a) => ok a = true -> length (vals a) = n /\ balances BASE_FRAME q (still n) (still n) [] (vals a)
  | (InvDynForce q v w f frame, a) => ok a = true -> length (vals a) = n /\ balances frame q v w f (vals a)
  | _ => True
  end.
(** the solver finds joint positions that bring the endpoints, from the joint positions [g], to the poses asked for, told in the frame
    [frame]: [reaches frame g q poses] *)
Definition solves_in (n : nat) (reaches : Z -> list R -> list R -> list frame -> Prop) (e : event) : Prop :=
  match e with
  | (InvKin x g f, a) => ok a = true -> length (vals a) = n /\ reaches f g (vals a) (poses x)
  | _ => True
  end.
(** the solver tells where the endpoints are: [k] poses *)
Definition tells_poses (k : nat) (place : list R -> list frame) (e : event) : Prop :=
  match e with
  | (FwdKin q, a) => ok a = true -> length (vals a) = (6 * k)%nat /\ poses (vals a) = place q
  | _ => True
  end.
(** the solver's solutions respect the joint limits *)
Definition solves_inside (c : cfg) (e : event) : Prop :=
  match e with
  | (InvKin _ _ _, a) => ok a = true -> inside c (vals a)
  | _ => True
  end.

(** the commands that start a movement, and the state that they lead to *)
Definition begins (o : op) : option Z :=
  match o with
  | OMovj _ | ORelj _ => Some VOCAB_CC_MOVJ_CONTROLLING
  | OMovl _ _ => Some VOCAB_CC_MOVL_CONTROLLING
  | OMovv _ => Some VOCAB_CC_MOVV_CONTROLLING
  | OGcmp => Some VOCAB_CC_GCMP_CONTROLLING
  | OForc _ => Some VOCAB_CC_FORC_CONTROLLING
  | _ => None
  end.
(** what getParameters shows of the variables *)
Definition same_configuration (s s' : st) : Prop :=
  gain s' = gain s /\ duration s' = duration s /\ cmcPeriodMs s' = cmcPeriodMs s /\ waitPeriodMs s' = waitPeriodMs s /\
  referenceFrame s' = referenceFrame s /\ streamingCommand s' = streamingCommand s.

(** a call was answered with failure *)
Definition refused (tr : list event) : Prop := exists x a, In (x, a) tr /\ ok a = false.
(** the calls begin with asking for the control modes, and all joints are in the mode *)
Definition in_mode (n : nat) (m : Z) (tr : list event) : Prop := exists a t, tr = (GetControlModes, a) :: t /\ all_in_mode n m a.
(** from the joint positions [q] to [q'] *)
Definition difference (q q' d : list R) : Prop := length d = length q /\ forall j, (j < length q)%nat -> nth j d 0 = nth j q' 0 - nth j q 0.

(** numbers added one by one *)
Definition sums (x d y : list R) : Prop := (length d <= length x)%nat /\ length y = length x /\ forall j, (j < length x)%nat -> nth j y 0 = nth j x 0 + nth j d 0.
(** the rotation vector of the [i]-th endpoint *)
Definition rotation_at (x : list R) (i : nat) : vec := V (nth (6 * i + 3) x 0) (nth (6 * i + 4) x 0) (nth (6 * i + 5) x 0).
(** the endpoint goes from [a] to [b] by the offset [d]: translated, and turned about itself, along the axes of the base *)
Definition moved_by (d a b : frame) : Prop := fp b = vadd (fp a) (fp d) /\ fM b = mm (fM d) (fM a).
(** rotation vectors along the same axis, none of them within KDL's tolerance of zero without being zero; or no rotation at all *)
Definition tame (t : R) : Prop := t = 0 \/ kdl_eps <= Rabs t.
Definition aligned (v d : vec) : Prop :=
  d = vzero \/ exists u s t, unit u /\ v = vscale s u /\ d = vscale t u /\ tame s /\ tame t /\ tame (s + t).

(** joint positions sent to the robot *)
Definition sends_positions (x : call) (q : list R) : Prop := x = PositionMove q \/ x = SetPositions q.
(** those sent are all within the joint limits *)
Definition within (c : cfg) (tr : list event) : Prop := forall x a q, In (x, a) tr -> sends_positions x q -> inside c q.
(** the command drives the joints to positions that bring the endpoints to the poses of [y], or leaves them where they are if none has to move *)
Definition moves_to (c : cfg) (reaches : Z -> list R -> list R -> list frame -> Prop) (y : list R) (s : st) (tr : list event) (s' : st) : Prop :=
  exists g q', joints_read (numJoints c) tr g /\ length q' = numJoints c /\ reaches (referenceFrame s) g q' (poses y) /\
    ((motions tr = [PositionMove q'] /\ (exists a, In (PositionMove q', a) tr /\ ok a = true) /\ currentState s' = VOCAB_CC_MOVJ_CONTROLLING) \/
     (motions tr = [] /\ s' = s /\ ~ must_move (numJoints c) (qRefSpeeds c) g q')).
