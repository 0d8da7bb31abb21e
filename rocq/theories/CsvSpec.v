(** Vocabulary for the claims about kdl-from-csv.py: what the cells of a table mean, and
    what a printed number stands for. *)
From Coq Require Import Reals List Bool ZArith Ascii String.
From Verif Require Import Kdl Config Csv.
Import ListNotations.
Open Scope R_scope.
Local Notation length := List.length.

Definition numeral (t : text) : Prop :=
  Forall (fun c => 48 <= nat_of_ascii c <= 57)%nat t /\ t <> [].

(** a cell is a sequence of names of lengths (a letter and a number, such as l3), of joints
    (q3), and of other text *)
Inductive piece := Length (number : text) | Joint (number : nat) | Other (t : text).

(** how it is written, given the letter of the lengths, ... *)
Definition written (letter : ascii) (p : piece) : text :=
  match p with
  | Length n => letter :: n
  | Joint i => joint_name i
  | Other t => t
  end.
(** ... and the same with the values: joints at zero, lengths as in the table *)
Definition valued (table : text -> text) (p : piece) : text :=
  match p with
  | Length n => table n
  | Joint i => tx "0.0"
  | Other t => t
  end.
Definition write (letter : ascii) (ps : list piece) : text := flat_map (written letter) ps.
Definition evaluate (table : text -> text) (ps : list piece) : text := flat_map (valued table) ps.

(** neither the letter of the lengths nor that of the joints *)
Definition no_letters (letter : ascii) (t : text) : Prop := ~ In letter t /\ ~ In "q"%char t.

Definition nondigit_first (t : text) : Prop :=
  match t with [] => False | c :: _ => ~ (48 <= nat_of_ascii c <= 57)%nat end.

(** a well-formed cell: joints 1 to 27, lengths of the table, other text without these
    letters, and after a name the end of the cell or some text that does not begin with a digit *)
Fixpoint well_formed (letter : ascii) (numbers : list text) (ps : list piece) : Prop :=
  match ps with
  | [] => True
  | p :: ps' =>
      match p with
      | Length n => In n numbers
      | Joint i => (1 <= i <= 27)%nat
      | Other t => no_letters letter t
      end
      /\ match p, ps' with
         | Other _, _ | _, [] => True
         | _, Other t :: _ => nondigit_first t
         | _, _ => False
         end
      /\ well_formed letter numbers ps'
  end.

(** cells that may hold lengths only, joints only, or neither *)
Definition no_lengths (ps : list piece) : Prop := forall n, ~ In (Length n) ps.
Definition no_joints (ps : list piece) : Prop := forall i, ~ In (Joint i) ps.

(** the file of lengths, as numbers and values in millimetres *)
Definition lengths_file (letter : ascii) (l : list (text * text)) : list row :=
  map (fun e => [letter :: fst e; snd e]) l.

(** a row of the table: its name, and the cells of offset, D, A and alpha *)
Record dh_cells := Cells { x_name : text; x_offset : list piece; x_d : list piece; x_a : list piece; x_alpha : list piece }.
Definition dh_row (letter : ascii) (c : dh_cells) : row :=
  [x_name c; write letter (x_offset c); write letter (x_d c); write letter (x_a c); write letter (x_alpha c)].
Definition good_row (letter : ascii) (numbers : list text) (c : dh_cells) : Prop :=
  (well_formed letter numbers (x_offset c) /\ no_lengths (x_offset c))
  /\ well_formed letter numbers (x_d c)
  /\ (well_formed letter numbers (x_a c) /\ no_joints (x_a c))
  /\ (no_lengths (x_alpha c) /\ no_joints (x_alpha c)).
(** its parameters, as the interpreter [ev] evaluates them *)
Definition row_means (ev : text -> option R) (table : text -> text) (c : dh_cells) (l : dh_link) : Prop :=
  ev (evaluate table (x_offset c)) = Some (dh_offset l)
  /\ ev (evaluate table (x_d c)) = Some (dh_d l)
  /\ ev (evaluate table (x_a c)) = Some (dh_a l)
  /\ ev (evaluate table (x_alpha c)) = Some (dh_alpha l).

(** Denavit-Hartenberg: about and along z, then along and about x *)
Definition dh_pose (l : dh_link) : frame :=
  let rad x := x * (PI / 180) in
  fmul (fmul (F (RotZ (rad (dh_offset l))) vzero) (ftrans (V 0 0 (dh_d l))))
       (fmul (ftrans (V (dh_a l) 0 0)) (F (RotX (rad (dh_alpha l))) vzero)).
Definition product (ls : list dh_link) : frame := fold_left (fun f l => fmul f (dh_pose l)) ls fid.

(** the number that a text stands for *)
Definition place (n : Z) (c : ascii) : Z := (10 * n + (Z.of_nat (nat_of_ascii c) - 48))%Z.
Definition natural (t : text) : Z := fold_left place t 0%Z.
Inductive magnitude : text -> R -> Prop :=
| whole a : numeral a -> magnitude a (IZR (natural a))
| decimals a b : numeral a -> numeral b ->
    magnitude (a ++ "."%char :: b) (IZR (natural a) + IZR (natural b) / 10 ^ length b).
Inductive reads : text -> R -> Prop :=
| reads_plus t x : magnitude t x -> reads t x
| reads_minus t x : magnitude t x -> reads ("-"%char :: t) (- x).

(** no needless characters: not -0, no zeros or point at the end of the decimals *)
Definition tidy (t : text) : Prop :=
  t <> tx "-0" /\
  (In "."%char t -> last t "."%char <> "."%char /\ last t "."%char <> "0"%char).

(** Python rounds to the closest number with 15 decimals *)
Definition rounds15 (fmt : R -> bool * Z) : Prop :=
  forall x, (0 <= snd (fmt x))%Z
    /\ Rabs ((if fst (fmt x) then - IZR (snd (fmt x)) else IZR (snd (fmt x))) - x * 10 ^ 15) <= 1 / 2.

(** the entries of a homogeneous matrix, by rows *)
Definition entries (h : frame) : list R :=
  let m := fM h in let p := fp h in
  [m00 m; m01 m; m02 m; vx p; m10 m; m11 m; m12 m; vy p; m20 m; m21 m; m22 m; vz p; 0; 0; 0; 1].

(** no entry of the dictionary is visited before one whose name it begins *)
Fixpoint longer_first (names : list text) : Prop :=
  match names with
  | [] => True
  | n :: names' => Forall (fun m => forall r, m = n ++ r -> r = []) names' /\ longer_first names'
  end.
(** no name begins another *)
Definition none_begins_another (names : list text) : Prop :=
  forall n r, In n names -> In (n ++ r) names -> r = [].

(** the words of the printed matrix: each stands for its entry, to 15 decimals *)
Definition shows (words : list text) (h : frame) : Prop :=
  exists nums, words = tx "(" :: nums ++ [tx ")"]
    /\ Forall2 (fun t x => exists y, reads t y /\ Rabs (y - x) <= / 2 / 10 ^ 15) nums (entries h).

(** the lengths are named by one letter other than q, each by its own number, and in metres they are the texts of [table] *)
Definition is_letter (c : ascii) : Prop := (65 <= nat_of_ascii c <= 90 \/ 97 <= nat_of_ascii c <= 122)%nat.
Definition good_lengths (metres : text -> option text) (letter : ascii) (table : text -> text)
    (file : list (text * text)) : Prop :=
  is_letter letter /\ letter <> "q"%char /\ NoDup (map fst file)
  /\ Forall (fun e => numeral (fst e) /\ metres (snd e) = Some (table (fst e)) /\ no_letters letter (table (fst e))) file.

(** every entry of two poses is the same, to 15 decimals *)
Definition same15 (a b : frame) : Prop :=
  Forall2 (fun x y => Rabs (x - y) <= / 2 / 10 ^ 15) (entries a) (entries b).
