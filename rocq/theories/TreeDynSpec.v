(** What the properties of the dynamics of the tree solver say.  Nothing here models code. *)
From Coq Require Import Reals List Bool String.
From Verif Require Import Kdl KdlRot KdlSolver Ft AsibotSpec Config ConfigSpec Tree TreeSpec Dyn DynSpec.
Import ListNotations.
Open Scope R_scope.
Local Notation length := List.length.
Local Notation concat := List.concat.

(** the links of the file: the name of the frame at the end of each, and what its group says of it *)
Definition weights_of (cs : list tree_chain) (ms : string -> nat -> mass_group) : list (string * (link_groups * mass_group)) :=
  concat (map (fun c => map (fun p => (link_name c (fst p) (snd p), (snd p, ms (tc_name c) (fst p)))) (combine (seq 0 (length (links_of c))) (links_of c))) cs).
(** the matrices before and after the links are rigid displacements *)
Definition firm (c : tree_chain) : Prop := forall f, matrix_at (ch_H0 (tc_chain c)) f \/ matrix_at (ch_HN (tc_chain c)) f -> rigid f.
(** the potential energy of the robot that the file describes, with its joints at [x] *)
Definition tree_energy (g : vec) (cs : list tree_chain) (ms : string -> nat -> mass_group) (x : nat -> R) (e : R) : Prop :=
  exists fs, Forall2 (fun l f => frame_at cs x (fst l) f) (weights_of cs ms) fs /\
    e = sum (map (fun p => weight g (snd p) (snd (snd (fst p)))) (combine (weights_of cs ms) fs)).
(** the torques hold it, with its joints at [q]: moving the joints changes the energy by the work of the torques *)
Definition tree_holds (g : vec) (cs : list tree_chain) (ms : string -> nat -> mass_group) (q torques : list R) : Prop :=
  length torques = length q /\ forall u, length u = length q ->
  exists e, (forall t, tree_energy g cs ms (fun j => nth j (moving q u t) 0) (e t)) /\ derivable_pt_lim e 0 (power torques u).

(** the body that a group describes: mass, centre and moments of inertia, all in a group link_i, or no mass *)
Inductive body_given : link_groups * mass_group -> body -> Prop :=
| no_mass g m : mg_mass m = None -> body_given (g, m) no_body
| with_mass g m k x y z a b c : lg_dh g <> None -> mg_mass m = Some k -> mg_cog m = Some [x; y; z] -> mg_inertia m = Some [a; b; c] ->
    body_given (g, m) (Bd k (V x y z) (V a b c)).
(** d'Alembert's principle: the torques, and the wrenches [ws] on the frames with these names (with the axes of the root), do the same
    virtual work as the bodies on the frames with these names resist with *)
Definition tree_drives (g : vec) (cs : list tree_chain) (bs : list (string * body)) (js : list (R -> R)) (t : R) (ws : list (string * wrench)) (torques : list R) : Prop :=
  let now := map (fun j => j t) js in
  forall u, length u = length now -> exists (d : string -> twist) (x : string * body -> R),
    (forall n, In n (map fst bs) \/ In n (map fst ws) -> exists f, (forall s, frame_at cs (fun j => nth j (moving now u s) 0) n (f s)) /\ velocity_of f 0 (d n)) /\
    (forall b, In b bs -> exists f, (forall s, frame_at cs (fun j => nth j (map (fun j => j s) js) 0) (fst b) (f s)) /\ resists g (snd b) f t (d (fst b)) (x b)) /\
    power torques u + sum (map (fun w => wrench_power (snd w) (d (fst w))) ws) = sum (map x bs).
