(** What the configuration file of a solver describes. *)
From Coq Require Import Reals List String.
From Verif Require Import Kdl KinRep Config.
Import ListNotations.
Open Scope R_scope.
Local Notation S := Datatypes.S.

(** turns about and shifts along an axis through the origin *)
Definition turn (a : vec) (x : R) : frame := F (Rot2 a x) vzero.
Definition shift (a : vec) (x : R) : frame := F mid (vscale x a).
Definition ex := V 1 0 0.
Definition ey := V 0 1 0.
Definition ez := V 0 0 1.

(** the motions named by Type in the file, given the coordinate of the joint *)
Definition motions : list (string * (R -> frame)) :=
  [("RotX", turn ex); ("RotY", turn ey); ("RotZ", turn ez);
   ("InvRotX", turn (vneg ex)); ("InvRotY", turn (vneg ey)); ("InvRotZ", turn (vneg ez));
   ("TransX", shift ex); ("TransY", shift ey); ("TransZ", shift ez);
   ("InvTransX", shift (vneg ex)); ("InvTransY", shift (vneg ey)); ("InvTransZ", shift (vneg ez))]%string.
Definition rotary_types := ["RotX"; "RotY"; "RotZ"; "InvRotX"; "InvRotY"; "InvRotZ"]%string.

(** [link_at g x f]: the link described by the groups [g], with its joint at [x] (radians for
    a rotary joint, metres for a prismatic one), takes the frame before it to the frame
    after it by [f].  A link_i group holds Denavit-Hartenberg parameters and has precedence. *)
Inductive link_at : link_groups -> R -> frame -> Prop :=
| at_dh : forall offset d a alpha o x,
    link_at (Lg (Some (Dh offset d a alpha)) o) x
      (fmul (turn ez (x + degToRad offset)) (fmul (shift ez d) (fmul (shift ex a) (turn ex (degToRad alpha)))))
| at_xyz : forall a b c t m x, In (t, m) motions ->
    link_at (Lg None (Some (Xyz a b c t))) x (fmul (m x) (F mid (V a b c))).

(** links one after the other, with their coordinates *)
Inductive links_at : list link_groups -> list R -> frame -> Prop :=
| links_nil : links_at [] [] fid
| links_cons : forall g x f gs xs f', link_at g x f -> links_at gs xs f' -> links_at (g :: gs) (x :: xs) (fmul f f').

(** a group described in the file: Denavit-Hartenberg parameters, or a Type in the list *)
Definition described (g : link_groups) : Prop :=
  lg_dh g <> None \/ exists a b c t, lg_xyz g = Some (Xyz a b c t) /\ In t (map fst motions).
Definition rotary (g : link_groups) : Prop :=
  lg_dh g <> None \/ exists a b c t, lg_xyz g = Some (Xyz a b c t) /\ In t rotary_types.

(** the frame of a 4x4 matrix given row by row; no matrix, no displacement *)
Inductive matrix_at : option (list R) -> frame -> Prop :=
| no_matrix : matrix_at None fid
| row_by_row : forall a b c d e f g h i j k l z0 z1 z2 z3,
    matrix_at (Some [a; b; c; d; e; f; g; h; i; j; k; l; z0; z1; z2; z3]) (F (M a b c e f g i j k) (V d h l)).

(** the coordinate of a joint whose value is [v] in the documented units (degrees or metres) *)
Inductive coordinate : link_groups -> R -> R -> Prop :=
| in_degrees : forall g v, rotary g -> coordinate g v (v * PI / 180)
| in_metres : forall g v, described g -> ~ rotary g -> coordinate g v v.
