(** What the theorems about keyboardController are stated in. *)
From Coq Require Import Reals List Bool String Ascii ZArith.
From Verif Require Import Kdl KdlRot KdlRotFacts KinRep Vocab Keyboard.
Import ListNotations.
Open Scope R_scope.
Local Notation S := Datatypes.S.
Local Notation length := List.length.

(** ** The keys, as the help shows them *)
Definition chars (s : string) : list ascii := list_ascii_of_string s.
Definition escape : ascii := "027"%char.
(** keys that move joint [j] in the direction [sg] *)
Definition joint_key (k : ascii) (j : nat) (sg : R) : Prop :=
  (nth_error (chars "123456789") j = Some k /\ sg = 1) \/ (nth_error (chars "qwertyuio") j = Some k /\ sg = -1).
(** keys that move along (or around) the Cartesian axis [i] *)
Definition cart_key (k : ascii) (i : nat) (sg : Z) : Prop :=
  (nth_error (chars "asdfgh") i = Some k /\ sg = 1%Z) \/ (nth_error (chars "zxcvbn") i = Some k /\ sg = (-1)%Z).
(** the other keys with a meaning; all the rest stop the robot *)
Definition stop_key (k : ascii) : Prop :=
  ~ In k (chars "123456789qwertyuio") /\ ~ In k (chars "asdfghzxcvbn") /\ ~ In k (chars "?jp0mkl").

(** The module is still running: the escape key has not been pressed *)
Definition running (evs : list k_event) : Prop := Forall (fun ev => match ev with EKey k _ => k <> escape | ETick _ => True end) evs.

(** ** What a list of commands leaves going on, oldest first *)
(** the last joint motion that has not been stopped *)
Definition joint_motion (cs : list k_cmd) : option k_jmode :=
  fold_left (fun m c => match c, m with
    | KPosMove _ _, _ => Some JPosition | KVelMove _ _, _ => Some JVelocity
    | KPosStop, Some JPosition => None | KVelStop, Some JVelocity => None
    | _, _ => m end) cs None.
(** the last Cartesian velocity that has not been stopped *)
Definition cart_motion (cs : list k_cmd) : list R :=
  fold_left (fun m c => match c with KMovv v => v | KStop => [] | _ => m end) cs [].
Definition at_rest (v : list R) : Prop := Forall (fun x => x = 0) v.
(** the last gripper command that was accepted *)
Definition gripper_motion (cs : list k_cmd) : Z :=
  fold_left (fun m c => match c with KAct a true => a | _ => m end) cs VOCAB_CC_ACTUATOR_STOP_GRIPPER.
(** the last velocity of joint [j], zero after a stop *)
Definition joint_velocity (j : nat) (cs : list k_cmd) : R :=
  fold_left (fun v c => match c with KVelMove i w => if Nat.eqb i j then w else v | KPosStop | KVelStop | KStop => 0 | _ => v end) cs 0.

Definition clamped (lo hi x y : R) : Prop :=
  (x < lo -> y = lo) /\ (hi < x -> y = hi) /\ (lo <= x <= hi -> y = x).

(** ** Cartesian velocities: how many times the keys of each axis were pressed since the last stop, up minus down. Only the keys that print,
    the help and the tool do not stop. *)
Definition bump (i : nat) (sg : Z) (n : nat -> Z) : nat -> Z := fun k => if Nat.eqb k i then (n k + sg)%Z else n k.
Inductive presses (board : bool) : list k_event -> (nat -> Z) -> Prop :=
| pr_none : presses board [] (fun _ => 0%Z)
| pr_cart : forall evs k e i sg n, presses board evs n -> cart_key k i sg -> presses board (evs ++ [EKey k e]) (bump i sg n)
| pr_keep : forall evs k e n, presses board evs n -> In k (chars "?pkl") \/ (k = "j"%char /\ board = true) -> presses board (evs ++ [EKey k e]) n
| pr_stop : forall evs k e n, presses board evs n -> ~ In k (chars "asdfghzxcvbn") -> ~ In k (chars "?pkl") -> ~ (k = "j"%char /\ board = true) ->
    presses board (evs ++ [EKey k e]) (fun _ => 0%Z)
| pr_tick : forall evs t n, presses board evs n -> presses board (evs ++ [ETick t]) n.
(** 5 mm/s and 0.01 rad/s per press *)
Definition velocity (n : nat -> Z) : list R :=
  [IZR (n 0%nat) * (5 / 1000); IZR (n 1%nat) * (5 / 1000); IZR (n 2%nat) * (5 / 1000);
   IZR (n 3%nat) * (1 / 100); IZR (n 4%nat) * (1 / 100); IZR (n 5%nat) * (1 / 100)].
(** The Cartesian controller answers every time *)
Definition answering (evs : list k_event) : Prop :=
  Forall (fun ev => match ev with EKey _ e => e_preset e = true /\ e_stat e <> None | ETick _ => True end) evs.

(** Events that leave the Cartesian motion as it is: time, the help, the prints and the tool *)
Definition keeps (board : bool) (ev : k_event) : Prop :=
  match ev with ETick _ => True | EKey k _ => In k (chars "?pkl") \/ (k = "j"%char /\ board = true) end.
(** The frame in use: the one found at the start, swapped by each 'm' that is accepted *)
Definition swapped (f : Z) : Z := if Z.eqb f BASE_FRAME then TCP_FRAME else BASE_FRAME.
Inductive frame_in_use (f0 : Z) : list k_event -> Z -> Prop :=
| fr_none : frame_in_use f0 [] f0
| fr_swap : forall evs e f, frame_in_use f0 evs f -> e_frame e = true -> frame_in_use f0 (evs ++ [EKey "m"%char e]) (swapped f)
| fr_refused : forall evs e f, frame_in_use f0 evs f -> e_frame e = false -> frame_in_use f0 (evs ++ [EKey "m"%char e]) f
| fr_other : forall evs k e f, frame_in_use f0 evs f -> k <> "m"%char -> frame_in_use f0 (evs ++ [EKey k e]) f
| fr_tick : forall evs t f, frame_in_use f0 evs f -> frame_in_use f0 (evs ++ [ETick t]) f.

(** [y] is the pose [x] after moving for a time [t] with the velocity [v] in the base frame *)
Definition plist (v : list R) : vec := V (nth 0 v 0) (nth 1 v 0) (nth 2 v 0).
Definition rlist (v : list R) : vec := V (nth 3 v 0) (nth 4 v 0) (nth 5 v 0).
Definition carried (x v : list R) (t : R) (y : list R) : Prop :=
  length y = 6%nat /\ plist y = vadd (plist x) (vscale t (plist v)) /\
  let m := mm (Rot (rlist v) (t * norm (rlist v))) (Rot (rlist x) (norm (rlist x))) in
  good_log m -> Rot (rlist y) (norm (rlist y)) = m.

(** The way joints move: the one configured, swapped by each '0' *)
Definition other_mode (m : k_jmode) : k_jmode := match m with JPosition => JVelocity | JVelocity => JPosition end.
Inductive joint_mode_in_use (m0 : k_jmode) : list k_event -> k_jmode -> Prop :=
| jm_none : joint_mode_in_use m0 [] m0
| jm_swap : forall evs e m, joint_mode_in_use m0 evs m -> joint_mode_in_use m0 (evs ++ [EKey "0"%char e]) (other_mode m)
| jm_other : forall evs k e m, joint_mode_in_use m0 evs m -> k <> "0"%char -> joint_mode_in_use m0 (evs ++ [EKey k e]) m
| jm_tick : forall evs t m, joint_mode_in_use m0 evs m -> joint_mode_in_use m0 (evs ++ [ETick t]) m.
Definition configured_mode (b : k_robot) : k_jmode := if String.eqb (r_mode b) "pos" then JPosition else JVelocity.
