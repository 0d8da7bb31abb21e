(** Model of scripts/python/kdl-from-csv.py (and of the part of roboview-from-csv.py that is
    the same, lines 16-66): the lengths and the Denavit-Hartenberg table of two CSV files are
    made into a chain, whose pose at rest is printed.

    A text is a list of characters.  [None] stands for an exception: a row with too few
    cells, a text that is not a number, an expression that cannot be evaluated.

    Parameters, all part of Python: [metres] maps the text of a length in millimetres to
    str(float(text) / 1000.0); [ev] is eval() of an expression; [fmt] rounds a number to
    15 decimals; [order] is the order in which the entries of a dictionary are visited (that
    of insertion since Python 3.7, any other before).  The parsing of the files into rows of
    cells and the lines printed on the way are left out. *)
From Coq Require Import Reals List Bool ZArith Ascii String.
From Verif Require Import Kdl Config.
Import ListNotations.
Open Scope R_scope.
Local Notation S := Datatypes.S.
Local Notation length := List.length.

Definition text := list ascii.
Definition tx (s : string) : text := list_ascii_of_string s.

(** ** texts *)
Fixpoint starts (k s : text) : bool :=
  match k, s with
  | [], _ => true
  | a :: k', b :: s' => Ascii.eqb a b && starts k' s'
  | _ :: _, [] => false
  end.

(** str.replace(k, v) with a text [k] of at least one character: from the left, occurrences that do not overlap;
    [skip] characters are left of the occurrence just replaced *)
Fixpoint replace_from (k v s : text) (skip : nat) : text :=
  match s with
  | [] => []
  | c :: s' =>
      match skip with
      | S n => replace_from k v s' n
      | O => if starts k s then v ++ replace_from k v s' (length k - 1)
             else c :: replace_from k v s' O
      end
  end.
(** the same with an empty [k]: [v] before each character and at the end *)
Fixpoint between (v s : text) : text := match s with [] => v | c :: s' => v ++ c :: between v s' end.
Definition replace (k v s : text) : text :=
  match k with [] => between v s | _ => replace_from k v s O end.

(** ** dictionaries *)
Definition dict := list (text * text).
(** d[k] = v: an entry that exists keeps its place *)
Fixpoint put (d : dict) (k v : text) : dict :=
  match d with
  | [] => [(k, v)]
  | (k', v') :: d' => if list_eq_dec ascii_dec k k' then (k, v) :: d' else (k', v') :: put d' k v
  end.
(** the loops of lines 46-49, 53-58 and 62-63 *)
Definition replace_all (d : dict) (s : text) : text :=
  fold_left (fun s e => replace (fst e) (snd e) s) d s.

(** str(i) of a number below 100 *)
Definition digit (n : Z) : ascii := ascii_of_nat (48 + Z.to_nat n).
Definition str_int (i : nat) : text :=
  let z := Z.of_nat i in
  if Nat.ltb i 10 then [digit z] else [digit (z / 10); digit (z mod 10)].
(** lines 27-28: twoDigitJoints, oneDigitjoints *)
Definition joint_name (i : nat) : text := tx "q" ++ str_int i.
Definition two_digit_joints : dict := map (fun i => (joint_name i, tx "0.0")) (seq 10 18).
Definition one_digit_joints : dict := map (fun i => (joint_name i, tx "0.0")) (seq 1 9).

Definition row := list text.

Section script.
Variable metres : text -> option text.
Variable ev : text -> option R.
Variable order : dict -> dict.
Variable fmt : R -> bool * Z.

(** line 34 *)
Fixpoint read_lengths (d : dict) (rows : list row) : option dict :=
  match rows with
  | [] => Some d
  | (name :: mm :: _) :: rows' =>
      match metres mm with Some v => read_lengths (put d name v) rows' | None => None end
  | _ => None
  end.

(** lines 45-67: the four parameters of a row *)
Definition row_params (lengths : dict) (r : row) : option dh_link :=
  match r with
  | _ :: offset :: d :: a :: alpha :: _ =>
      let joints s := replace_all (order one_digit_joints) (replace_all (order two_digit_joints) s) in
      match ev (joints offset),
            ev (replace_all (order lengths) (joints d)),
            ev (replace_all (order lengths) a),
            ev alpha with
      | Some o, Some d', Some a', Some al => Some (Dh o d' a' al)
      | _, _, _, _ => None
      end
  | _ => None
  end.

(** lines 22-23: degToRad *)
Definition deg_to_rad (deg : R) : R := deg * PI / 180.

(** lines 73-75: Segment(Joint(Joint.RotZ), Frame().DH(...)) *)
Definition csv_segment (l : dh_link) : segment :=
  mk_segment (axis_joint JRotZ 1)
    (dh_frame (dh_a l) (deg_to_rad (dh_alpha l)) (dh_d l) (deg_to_rad (dh_offset l))).

Fixpoint table_params (lengths : dict) (rows : list row) : option (list dh_link) :=
  match rows with
  | [] => Some []
  | r :: rows' =>
      match row_params lengths r, table_params lengths rows' with
      | Some l, Some ls => Some (l :: ls)
      | _, _ => None
      end
  end.

(** lines 77-80: the pose for joints at zero *)
Definition csv_pose (ls : list dh_link) : option frame :=
  let c := map csv_segment ls in chain_fwd_kin c (repeat 0 (nr_of_joints c)).

(** ** the numbers printed *)
(** the last [k] digits of [n], the integer [n] *)
Fixpoint last_digits (k : nat) (n : Z) : text :=
  match k with O => [] | S k' => last_digits k' (n / 10) ++ [digit (n mod 10)] end.
Fixpoint digits_fuel (fuel : nat) (n : Z) : text :=
  match fuel with
  | O => []
  | S f => if Z.ltb n 10 then [digit n] else digits_fuel f (n / 10) ++ [digit (n mod 10)]
  end.
Definition digits (n : Z) : text := digits_fuel (S (Z.to_nat (Z.log2 n))) n.
(** '%.15f' % x, given its sign and the integer closest to its magnitude times 10^15 *)
Definition fixed15 (x : bool * Z) : text :=
  (if fst x then tx "-" else []) ++ digits (snd x / 10 ^ 15) ++ tx "." ++ last_digits 15 (snd x mod 10 ^ 15).

(** str.rstrip(c) *)
Fixpoint rstrip (c : ascii) (s : text) : text :=
  match s with
  | [] => []
  | a :: s' => match rstrip c s' with
               | [] => if Ascii.eqb a c then [] else [a]
               | t => a :: t
               end
  end.

(** lines 84-89: s *)
Definition shown (x : R) : text :=
  let tmp := rstrip "." (rstrip "0" (fixed15 (fmt x))) in
  if list_eq_dec ascii_dec tmp (tx "-0") then tx "0" else tmp.

(** lines 91-94: the words printed, without the blanks between them *)
Definition printed (x : frame) : list text :=
  let m := fM x in let p := fp x in
  [tx "("; shown (m00 m); shown (m01 m); shown (m02 m); shown (vx p);
           shown (m10 m); shown (m11 m); shown (m12 m); shown (vy p);
           shown (m20 m); shown (m21 m); shown (m22 m); shown (vz p);
           tx "0"; tx "0"; tx "0"; tx "1"; tx ")"].

(** the script: rows of both files, the header of each already skipped (lines 33, 42) *)
Definition kdl_from_csv (lengths_rows dh_rows : list row) : option (list text) :=
  match read_lengths [] lengths_rows with
  | None => None
  | Some d =>
      match table_params d dh_rows with
      | None => None
      | Some ls => match csv_pose ls with Some x => Some (printed x) | None => None end
      end
  end.
End script.
