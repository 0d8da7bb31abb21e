(** What the configuration of the tree solver describes. *)
From Coq Require Import Reals List Bool String DecimalString.
From Verif Require Import Kdl KdlRot KinRep KdlSolver AsibotSpec Config ConfigSpec Tree.
Import ListNotations.
Open Scope R_scope.
Local Notation S := Datatypes.S.
Local Notation length := List.length.

(** a chain of the file, with its hook, its links and the matrices before and after them *)
Definition hook_of (c : tree_chain) : string := match tc_hook c with Some h => h | None => "root"%string end.
Definition links_of (c : tree_chain) : list link_groups :=
  map (ch_link (tc_chain c)) (seq 0 (match ch_numLinks (tc_chain c) with Some n => Z.to_nat n | None => 0%nat end)).
Definition described_chain (c : tree_chain) : Prop :=
  Forall described (links_of c) /\ (exists f, matrix_at (ch_H0 (tc_chain c)) f) /\ (exists f, matrix_at (ch_HN (tc_chain c)) f).

(** joints are numbered in the order of the file *)
Definition first_joint (cs : list tree_chain) (k : nat) : nat := list_sum (map (fun c => length (links_of c)) (firstn k cs)).
Definition coordinates (cs : list tree_chain) (k i : nat) (x : nat -> R) : list R := map x (seq (first_joint cs k) i).

(** name of the frame after the link with index [i] *)
Definition link_name (c : tree_chain) (i : nat) (g : link_groups) : string :=
  (tc_name c ++ (match lg_dh g with Some _ => "_link_" | None => "_xyzLink_" end) ++ NilEmpty.string_of_uint (Nat.to_uint i))%string.

(** [frame_at cs x n f]: with the joints at [x], the frame named [n] has pose [f] with respect
    to the root *)
Inductive frame_at (cs : list tree_chain) (x : nat -> R) : string -> frame -> Prop :=
| at_root : frame_at cs x "root" fid
| at_H0 : forall k c b h0, nth_error cs k = Some c -> frame_at cs x (hook_of c) b -> matrix_at (ch_H0 (tc_chain c)) h0 ->
    frame_at cs x (tc_name c ++ "_H0") (fmul b h0)
| at_link : forall k c b h0 i g f, nth_error cs k = Some c -> frame_at cs x (hook_of c) b -> matrix_at (ch_H0 (tc_chain c)) h0 ->
    nth_error (links_of c) i = Some g -> links_at (firstn (S i) (links_of c)) (coordinates cs k (S i) x) f ->
    frame_at cs x (link_name c i g) (fmul b (fmul h0 f))
| at_tip : forall k c b h0 f hn, nth_error cs k = Some c -> frame_at cs x (hook_of c) b -> matrix_at (ch_H0 (tc_chain c)) h0 ->
    links_at (links_of c) (coordinates cs k (length (links_of c)) x) f -> matrix_at (ch_HN (tc_chain c)) hn ->
    frame_at cs x (tc_name c) (fmul b (fmul h0 (fmul f hn))).

(** the TCPs, in the order of the file *)
Definition tcp_chains (cs : list tree_chain) : list tree_chain := filter tc_endpoint cs.
(** how many of the first TCPs are not merged with another one *)
Definition unmerged (cs : list tree_chain) : nat := length (filter (fun c => match tc_merge c with None => true | Some _ => false end) cs).
Definition six (x : list R) (i : nat) : list R := firstn 6 (skipn (6 * i) x).

(** the frames of a chain *)
Definition frame_of (c : tree_chain) (n : string) : Prop :=
  n = (tc_name c ++ "_H0")%string \/ n = tc_name c \/ exists i g, nth_error (links_of c) i = Some g /\ n = link_name c i g.
(** [on_path cs n k]: the chain with index [k] lies between the root and the frame [n] *)
Inductive on_path (cs : list tree_chain) : string -> nat -> Prop :=
| path_here : forall k c n, nth_error cs k = Some c -> frame_of c n -> on_path cs n k
| path_up : forall k j c n, nth_error cs j = Some c -> on_path cs (hook_of c) k -> frame_of c n -> on_path cs n k.

(** the targets handed to KDL: one for each TCP, read from the next six numbers of [x] or, for
    a merged TCP, that of the TCP it is merged with *)
Definition assigned {A} (conv : list R -> A) (cs : list tree_chain) (x : list R) (m : list (string * A)) : Prop :=
  map fst m = map tc_name (tcp_chains cs) /\
  forall i c, nth_error (tcp_chains cs) i = Some c ->
    match tc_merge c with
    | None => In (tc_name c, conv (six x (unmerged (firstn i (tcp_chains cs))))) m
    | Some w => exists v, In (tc_name c, v) m /\ In (w, v) m
    end.

(** the same targets after each has been acted on by the pose of its TCP *)
Definition rebased {A} (act : frame -> A -> A) (cs : list tree_chain) (x : nat -> R) (m m' : list (string * A)) : Prop :=
  map fst m' = map fst m /\ forall n v f, In (n, v) m -> frame_at cs x n f -> In (n, act f v) m'.

(** no chain is merged with itself *)
Definition no_self_merge (cs : list tree_chain) : Prop := forall c, In c cs -> tc_merge c <> Some (tc_name c).
(** no TCP that has a target of its own is declared after one that is merged *)
Definition merged_last (cs : list tree_chain) : Prop :=
  forall i j c d, (i < j)%nat -> nth_error (tcp_chains cs) i = Some c -> nth_error (tcp_chains cs) j = Some d -> tc_merge c <> None -> tc_merge d <> None.

(** joints that start at [q] and move with velocity [v] *)
Definition moving (q v : list R) (t : R) : list R := map (fun p => fst p + t * snd p) (combine q v).
(** KDL's velocity solver for the chain gives, at the joints [q] (degrees), velocities that move the end of the chain as asked *)
Definition faithful_chain (k : chain_solvers) (s : solver) (q : list R) : Prop :=
  let n := nr_of_joints (sv_chain s) in let qr := map degToRad (firstn n q) in
  forall x v, c_vel k (sv_chain s) qr x = Some v ->
    length v = n /\ forall p, (forall t, chain_fwd_kin (sv_chain s) (moving qr v t) = Some (p t)) -> velocity_of p 0 x.
(** ... and the one for trees, at [qr] (radians), velocities that move all the endpoints as asked *)
Definition faithful_tree (k : tree_solvers) (cs : list tree_chain) (qr : list R) : Prop :=
  forall m v, k_vel k qr m = Some v -> length v = length qr /\
    forall n x p, In (n, x) m -> (forall t, frame_at cs (fun j => nth j (moving qr v t) 0) n (p t)) -> velocity_of p 0 x.
