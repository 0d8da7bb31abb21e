(** What the properties of the dynamics say.  Nothing here models code. *)
From Coq Require Import Reals List Bool Arith.
From Verif Require Import Kdl KdlRot KdlSolver Ft TreeSpec AsibotSpec Config ConfigSpec Dyn.
Import ListNotations.
Open Scope R_scope.
Local Notation length := List.length.

(** a body fixed to a frame: mass, centre of mass, and moments of inertia about axes through it parallel to those of the frame *)
Record body := Bd { b_mass : R; b_cog : vec; b_inertia : vec }.
Definition no_body : body := Bd 0 vzero vzero.

(** where the links are: the frame at the end of each segment *)
Fixpoint places (f : frame) (c : chain) (q : list R) : list frame :=
  match c with
  | [] => []
  | s :: c' =>
      if is_fixed (s_joint s) then let f' := fmul f (segment_pose s 0) in f' :: places f' c' q
      else match q with
           | [] => []
           | x :: q' => let f' := fmul f (segment_pose s x) in f' :: places f' c' q'
           end
  end.
Definition place (c : chain) (q : list R) (i : nat) : frame := nth i (places fid c q) fid.

(** rigid links, rotations about unit vectors *)
Definition solid (c : chain) : Prop :=
  Forall (fun s => rigid (s_tip s) /\ (j_type (s_joint s) = JRotAxis -> unit (j_axis (s_joint s)))) c.

Definition sum (l : list R) : R := fold_right Rplus 0 l.
(** the power of torques (or forces) on joints that move with these velocities *)
Definition power (t v : list R) : R := sum (map (fun p => fst p * snd p) (combine t v)).

(** potential energy of the bodies on the links under gravity [g] *)
Definition potential (g : vec) (bs : list body) (c : chain) (q : list R) : R :=
  sum (map (fun p => - (b_mass (fst p) * dot g (fapp (snd p) (b_cog (fst p))))) (combine bs (places fid c q))).

(** derivative of a vector *)
Definition vec_rate (f : R -> vec) (t : R) (d : vec) : Prop :=
  derivable_pt_lim (fun s => vx (f s)) t (vx d) /\ derivable_pt_lim (fun s => vy (f s)) t (vy d) /\ derivable_pt_lim (fun s => vz (f s)) t (vz d).
(** a body fixed to the frame [f s], which moves, resists the virtual movement [d] of the frame at time [t]: the power of what keeps it
    from falling freely, that is, of its mass times the acceleration of its centre without gravity, and of the rate of its angular momentum *)
Definition resists (g : vec) (b : body) (f : R -> frame) (t : R) (d : twist) (x : R) : Prop :=
  exists (v : R -> twist) (a n : vec),
    (forall s, velocity_of f s (v s)) /\
    vec_rate (fun s => vadd (t_vel (v s)) (cross (t_rot (v s)) (mv (fM (f s)) (b_cog b)))) t a /\
    vec_rate (fun s => mv (fM (f s)) (let w := mv (mT (fM (f s))) (t_rot (v s)) in
                       V (vx (b_inertia b) * vx w) (vy (b_inertia b) * vy w) (vz (b_inertia b) * vz w))) t n /\
    x = b_mass b * dot (vsub a g) (vadd (t_vel d) (cross (t_rot d) (mv (fM (f t)) (b_cog b)))) + dot n (t_rot d).
(** the power of a wrench on a frame that moves: both told with the same axes and about the origin of the frame *)
Definition wrench_power (w : wrench) (d : twist) : R := dot (w_force w) (t_vel d) + dot (w_torque w) (t_rot d).

(** a wrench told in the frame of the tool at [f], or in that of the base: with the axes of the base *)
Definition base_axes (fr : ref_frame) (f : frame) (w : wrench) : wrench := match fr with TCP_FRAME => wrot (fM f) w | _ => w end.
(** the joints, at [j s] when the time is [s], go through [q] at time [t] with the velocities [v] and the accelerations [w] *)
Definition passes (js vs : list (R -> R)) (t : R) (q v w : list R) : Prop :=
  Forall2 (fun j x => forall s, derivable_pt_lim j s (x s)) js vs /\ Forall2 (fun x a => derivable_pt_lim x t a) vs w /\
  map (fun j => j t) js = q /\ map (fun x => x t) vs = v.
(** d'Alembert's principle: the torques, and the wrench on the end of the chain (with the axes of the base), do the same virtual work as the bodies resist with *)
Definition drives (g : vec) (bs : list body) (c : chain) (js : list (R -> R)) (t : R) (w : wrench) (torques : list R) : Prop :=
  let n := length c in let now := map (fun j => j t) js in
  forall u, length u = length now -> exists ds xs,
    (forall i, (i < n)%nat -> velocity_of (fun s => place c (moving now u s) i) 0 (ds i) /\ resists g (nth i bs no_body) (fun s => place c (map (fun j => j s) js) i) t (ds i) (xs i)) /\ power torques u + wrench_power w (ds (n - 1)%nat) = sum (map xs (seq 0 n)).

(** ** What the configuration file says of the weight *)
(** gravity: three numbers, or that of the Earth towards -z *)
Inductive gravity_at : option (option (list R)) -> vec -> Prop :=
| on_earth : gravity_at None (V 0 0 (- (981 / 100)))
| as_given x y z : gravity_at (Some (Some [x; y; z])) (V x y z).
(** the potential energy of a link at [f] with the mass and the centre that its group gives *)
Definition weight (g : vec) (f : frame) (m : mass_group) : R :=
  match mg_mass m, mg_cog m with Some k, Some [x; y; z] => - (k * dot g (fapp f (V x y z))) | _, _ => 0 end.
(** of all the links, with their joints at these positions, from the frame [f] on *)
Inductive energy_at (g : vec) : frame -> list (link_groups * mass_group) -> list R -> R -> Prop :=
| energy_none f : energy_at g f [] [] 0
| energy_link f l m ls x xs h e : link_at l x h -> energy_at g (fmul f h) ls xs e ->
    energy_at g f ((l, m) :: ls) (x :: xs) (weight g (fmul f h) m + e).
(** the torques hold the robot that the file describes, at [q] degrees: moving the joints changes the energy by the work of the torques *)
Definition holds (g : vec) (base : frame) (ls : list (link_groups * mass_group)) (q torques : list R) : Prop :=
  length torques = length q /\ forall u, length u = length q -> exists e, (forall t, energy_at g base ls (moving (map (fun a => a * PI / 180) q) u t) (e t)) /\ derivable_pt_lim e 0 (power torques u).
(** a mass is given together with a centre, in three coordinates, and moments of inertia, in a group link_i *)
Definition weighed (l : link_groups * mass_group) : Prop :=
  mg_mass (snd l) = None \/ (lg_dh (fst l) <> None /\ (exists x y z, mg_cog (snd l) = Some [x; y; z]) /\ mg_inertia (snd l) <> None).
