(** Specification vocabulary of the solver of ASIBOT. *)
From Coq Require Import Reals List.
From Verif Require Import Kdl KdlRot Trig Asibot.
Import ListNotations.
Open Scope R_scope.

(** [denotes x h]: the six numbers [x] are the position of [h] and its rotation vector, which
    is null or not shorter than 1e-6 *)
Definition denotes (x : list R) (h : frame) : Prop :=
  exists a t, unit a /\ (t = 0 \/ kdl_eps <= t) /\
    x = [vx (fp h); vy (fp h); vz (fp h); t * vx a; t * vy a; t * vz a] /\ fM h = Rot2 a t.

(** The arm: a vertical axis, three parallel horizontal axes and the axis of the flange, at
    distances a0 .. a3; angles in radians, zero when the arm points upwards *)
Definition up (h : R) : frame := F mid (V 0 0 h).
Definition turn (m : mat) : frame := F m vzero.
Definition arm (a0 a1 a2 a3 q1 q2 q3 q4 q5 : R) : frame :=
  fmul (turn (RotZ q1)) (fmul (up a0) (fmul (turn (RotY q2)) (fmul (up a1) (fmul (turn (RotY q3)) (fmul (up a2)
    (fmul (turn (RotY q4)) (fmul (up a3) (turn (RotZ q5))))))))).
Definition rad (x : R) : R := x * PI / 180.
(** the flange when the joints are at [q] degrees *)
Definition flange (s : asibot) (q : list R) : frame :=
  match q with
  | [q1; q2; q3; q4; q5] => arm (A0 s) (A1 s) (A2 s) (A3 s) (rad q1) (rad q2) (rad q3) (rad q4) (rad q5)
  | _ => fid
  end.
(** distance of the flange to the first axis, negative behind it *)
Definition ahead (s : asibot) (q : list R) : R :=
  match q with
  | [q1; q2; q3; q4; q5] => A1 s * sin (rad q2) + A2 s * sin (rad q2 + rad q3) + A3 s * sin (rad q2 + rad q3 + rad q4)
  | _ => 0
  end.
(** the distance of the fourth axis to the second *)
Definition wrist_at_shoulder (s : asibot) (q : list R) : Prop :=
  match q with
  | [q1; q2; q3; q4; q5] => A1 s * sin (rad q2) + A2 s * sin (rad q2 + rad q3) = 0 /\ A1 s * cos (rad q2) + A2 s * cos (rad q2 + rad q3) = 0
  | _ => False
  end.
Definition tool (s : asibot) : frame := if hasFrame s then frameTcp s else fid.

(** the same arm and limits *)
Definition same_arm (s s' : asibot) : Prop :=
  A0 s' = A0 s /\ A1 s' = A1 s /\ A2 s' = A2 s /\ A3 s' = A3 s /\ qMin s' = qMin s /\ qMax s' = qMax s.
(** without a tool, the stored one is the identity *)
Definition untooled (s : asibot) : Prop := hasFrame s = false -> frameTcp s = fid.
(** tools appended one after another *)
Fixpoint append_all (s : asibot) (xs : list (list R)) : option asibot :=
  match xs with
  | [] => Some s
  | x :: xs' => match appendLink s x with Some s' => append_all s' xs' | None => None end
  end.

(** the poses that two angles describe: the first turn is that of the position *)
Definition yz_pose (h : frame) : Prop :=
  exists b g, 0 < b < PI /\ Rabs (cos b) <= 1 - tiny /\ fM h = mm (RotZ (atan2 (vy (fp h)) (vx (fp h)))) (mm (RotY b) (RotZ g)).

Definition close (q' q : list R) : Prop := Forall2 (fun a b => Rabs (a - b) < / 1000) q' q.
Definition within (q lo hi : list R) : Prop :=
  length q = 5%nat /\ forall i x l h, nth_error q i = Some x -> nth_error lo i = Some l -> nth_error hi i = Some h -> l <= x <= h.
Definition within_tolerance (q lo hi : list R) : Prop :=
  length q = 5%nat /\ forall i x l h, nth_error q i = Some x -> nth_error lo i = Some l -> nth_error hi i = Some h -> l - / 1000 <= x <= h + / 1000.
(** limits for each of the five joints *)
Definition well_made (s : asibot) : Prop := length (qMin s) = 5%nat /\ length (qMax s) = 5%nat.
(** angles of a turn, in degrees *)
Definition one_turn (q : list R) : Prop := Forall (fun v => -180 < v <= 180) q.
(** the sum of the angles travelled, and that of the second joint *)
Definition distance (a b : list R) : R :=
  match a, b with
  | a1 :: a2 :: a3 :: a4 :: a5 :: _, [b1; b2; b3; b4; b5] =>
      Rabs (a1 - b1) + Rabs (a2 - b2) + Rabs (a3 - b3) + Rabs (a4 - b4) + Rabs (a5 - b5)
  | _, _ => 0
  end.
Definition second (a b : list R) : R := Rabs (nth 1 a 0 - nth 1 b 0).

(** what YARP's decomposition gives for the fixed direction of a half turn *)
Definition svd_ok (svd : mat -> vec) : Prop :=
  forall m, unit (svd m) /\ (rotation_matrix m -> mT m = m -> mv m (svd m) = svd m).

(** the velocity of a moving frame: of its origin, and angular *)
Definition velocity_of (f : R -> frame) (t : R) (c : twist) : Prop :=
  derivable_pt_lim (fun u => vx (fp (f u))) t (vx (t_vel c)) /\
  derivable_pt_lim (fun u => vy (fp (f u))) t (vy (t_vel c)) /\
  derivable_pt_lim (fun u => vz (fp (f u))) t (vz (t_vel c)) /\
  let w := t_rot c in let m u := fM (f u) in
  derivable_pt_lim (fun u => m00 (m u)) t (vy w * m20 (m t) - vz w * m10 (m t)) /\
  derivable_pt_lim (fun u => m01 (m u)) t (vy w * m21 (m t) - vz w * m11 (m t)) /\
  derivable_pt_lim (fun u => m02 (m u)) t (vy w * m22 (m t) - vz w * m12 (m t)) /\
  derivable_pt_lim (fun u => m10 (m u)) t (vz w * m00 (m t) - vx w * m20 (m t)) /\
  derivable_pt_lim (fun u => m11 (m u)) t (vz w * m01 (m t) - vx w * m21 (m t)) /\
  derivable_pt_lim (fun u => m12 (m u)) t (vz w * m02 (m t) - vx w * m22 (m t)) /\
  derivable_pt_lim (fun u => m20 (m u)) t (vx w * m10 (m t) - vy w * m00 (m t)) /\
  derivable_pt_lim (fun u => m21 (m u)) t (vx w * m11 (m t) - vy w * m01 (m t)) /\
  derivable_pt_lim (fun u => m22 (m u)) t (vx w * m12 (m t) - vy w * m02 (m t)).
(** the flange when joint [i] is at [u] radians and the others at [q] degrees *)
Definition moved (s : asibot) (q : list R) (i : nat) (u : R) : frame :=
  let at_ k x := if Nat.eqb i k then u else rad x in
  match q with
  | [q1; q2; q3; q4; q5] => arm (A0 s) (A1 s) (A2 s) (A3 s) (at_ 0%nat q1) (at_ 1%nat q2) (at_ 2%nat q3) (at_ 3%nat q4) (at_ 4%nat q5)
  | _ => fid
  end.
