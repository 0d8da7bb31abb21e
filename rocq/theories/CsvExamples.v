(** Files for kdl-from-csv.py. *)
From Coq Require Import Reals List Bool ZArith Ascii String Lia Lra Permutation.
From Verif Require Import Kdl KdlFacts Config Csv CsvSpec CsvFacts CsvFacts2 CsvFacts3 CsvFacts4 CsvFacts5.
Import ListNotations.
Local Open Scope R_scope.
Local Notation S := Datatypes.S.
Local Notation length := List.length.

(** a way of rounding *)
Definition round15 (x : R) : bool * Z := (Rltb x 0, up (Rabs x * 10 ^ 15 - 1 / 2)).
Lemma round15_rounds : rounds15 round15.
Proof.
  intros x. unfold round15; cbn [fst snd]. set (r := Rabs x * 10 ^ 15 - 1 / 2).
  destruct (archimed r) as [A B].
  assert (0 <= Rabs x * 10 ^ 15) as P by (apply Rmult_le_pos; [apply Rabs_pos | apply pow_le; lra]).
  split.
  - assert (-1 < up r)%Z; [|lia]. apply lt_IZR. unfold r in *. lra.
  - unfold Rltb. destruct (Rlt_dec x 0) as [L|L].
    + replace (- IZR (up r) - x * 10 ^ 15) with (- (IZR (up r) - Rabs x * 10 ^ 15)) by (rewrite Rabs_left by assumption; ring).
      rewrite Rabs_Ropp. apply Rabs_le. unfold r in *. lra.
    + replace (IZR (up r) - x * 10 ^ 15) with (IZR (up r) - Rabs x * 10 ^ 15) by (rewrite Rabs_right by lra; ring).
      apply Rabs_le. unfold r in *. lra.
Qed.

Definition teq (a b : text) : bool := if list_eq_dec ascii_dec a b then true else false.

(** the values of a few texts *)
Fixpoint known (l : list (string * R)) (t : text) : option R :=
  match l with
  | [] => None
  | (s, x) :: l' => if teq (tx s) t then Some x else known l' t
  end.
Fixpoint known_text (l : list (string * string)) (t : text) : option text :=
  match l with
  | [] => None
  | (s, x) :: l' => if teq (tx s) t then Some (tx x) else known_text l' t
  end.

(** two lengths and two rows: (q1-90, l2+l12, 0, 90), (q13, 0, -l12, 0) *)
Definition mm_text : text -> option text := known_text [("191.8", "0.1918"); ("329", "0.329")]%string.
Definition two_lengths : list (text * text) := [(tx "2", tx "191.8"); (tx "12", tx "329")].
Definition in_metres (n : text) : text := if teq n (tx "2") then tx "0.1918" else tx "0.329".
Definition evaluator : text -> option R :=
  known [("0.0-90", -90); ("0.1918+0.329", 0.5208); ("0", 0); ("90", 90); ("0.0", 0); ("-0.329", -0.329)]%string.
Definition two_rows : list dh_cells :=
  [Cells (tx "1") [Joint 1; Other (tx "-90")] [Length (tx "2"); Other (tx "+"); Length (tx "12")] [Other (tx "0")] [Other (tx "90")];
   Cells (tx "2") [Joint 13] [Other (tx "0")] [Other (tx "-"); Length (tx "12")] [Other (tx "0")]].
Definition two_links : list dh_link := [Dh (-90) 0.5208 0 90; Dh 0 0 (-0.329) 0].

Ltac is_numeral := split; [repeat (constructor; [cbn; lia|]); constructor | discriminate].
Ltac not_in := cbn; intuition discriminate.

Ltac cell := cbn; unfold no_letters; repeat split; cbn; try lia; try (intuition discriminate); auto.
Ltac no_piece := intros ? ?; cbn in *; intuition discriminate.
Ltac good_row_tac :=
  split; [split; [cell | no_piece]|]; split; [cell|]; split; [split; [cell | no_piece]|]; split; no_piece.

Lemma two_lengths_good : good_lengths mm_text "l" in_metres two_lengths.
Proof.
  split; [right; cbn; lia|]. split; [discriminate|]. split.
  - cbn. repeat constructor; not_in.
  - repeat constructor; cbn [fst snd]; try (cbn; lia); try discriminate; not_in.
Qed.
Lemma two_lengths_free : none_begins_another (map fst two_lengths).
Proof.
  intros n r [<-|[<-|[]]] [E|[E|[]]]; cbn in E; try discriminate; injection E as E; now subst.
Qed.
Lemma two_rows_good : Forall (good_row "l" (map fst two_lengths)) two_rows.
Proof. repeat (apply Forall_cons; [good_row_tac|]); constructor. Qed.
Lemma two_rows_mean : Forall2 (row_means evaluator in_metres) two_rows two_links.
Proof. repeat constructor. Qed.
Lemma id_perm : forall d : dict, Permutation ((fun d => d) d) d.
Proof. intros d. apply Permutation_refl. Qed.

(** ** l1 begins l10 *)
Definition mm_text2 : text -> option text := known_text [("100", "0.1"); ("200", "0.2")]%string.
Definition one_ten : list (text * text) := [(tx "1", tx "100"); (tx "10", tx "200")].
Definition in_metres2 (n : text) : text := if teq n (tx "1") then tx "0.1" else tx "0.2".
Definition ten_row : list dh_cells := [Cells (tx "1") [Joint 1] [Length (tx "10")] [Other (tx "0")] [Other (tx "0")]].
Definition evaluator3 : text -> option R := known [("0", 0); ("0.0", 0); ("0.1", 0.1); ("0.10", 0.1); ("0.2", 0.2)]%string.

Lemma one_ten_good : good_lengths mm_text2 "l" in_metres2 one_ten.
Proof.
  split; [right; cbn; lia|]. split; [discriminate|]. split.
  - cbn. repeat constructor; not_in.
  - repeat constructor; cbn [fst snd]; try (cbn; lia); try discriminate; not_in.
Qed.
Lemma ten_row_good : Forall (good_row "l" (map fst one_ten)) ten_row.
Proof. repeat (apply Forall_cons; [good_row_tac|]); constructor. Qed.
Lemma ten_row_means : Forall2 (row_means evaluator3 in_metres2) ten_row [Dh 0 0.2 0 0].
Proof. repeat constructor. Qed.

(** the same with l10 first *)
Definition ten_one : list (text * text) := [(tx "10", tx "200"); (tx "1", tx "100")].
Lemma ten_one_good : good_lengths mm_text2 "l" in_metres2 ten_one.
Proof.
  split; [right; cbn; lia|]. split; [discriminate|]. split.
  - cbn. repeat constructor; not_in.
  - repeat constructor; cbn [fst snd]; try (cbn; lia); try discriminate; not_in.
Qed.
Lemma ten_one_sorted : longer_first (map fst ten_one).
Proof. cbn. repeat constructor. intros r E. discriminate. Qed.
Lemma ten_row_good2 : Forall (good_row "l" (map fst ten_one)) ten_row.
Proof. repeat (apply Forall_cons; [good_row_tac|]); constructor. Qed.

Lemma f2_nth {A B} (P : A -> B -> Prop) l l' n x y : Forall2 P l l' ->
  nth_error l n = Some x -> nth_error l' n = Some y -> P x y.
Proof.
  intros F. revert n. induction F as [|a b l l' H F IH]; intros [|n] X Y; try discriminate.
  - injection X as <-. now injection Y as <-.
  - now apply (IH n).
Qed.

Lemma prefix_refuted : exists metres ev letter table file rows links,
  good_lengths metres letter table file /\ Forall (good_row letter (map fst file)) rows
  /\ Forall2 (row_means ev table) rows links
  /\ forall fmt, rounds15 fmt ->
     exists words, kdl_from_csv metres ev (fun d => d) fmt (lengths_file letter file) (map (dh_row letter) rows) = Some words
       /\ ~ shows words (product links).
Proof.
  exists mm_text2, evaluator3, "l"%char, in_metres2, one_ten, ten_row, [Dh 0 0.2 0 0].
  split; [exact one_ten_good|]. split; [exact ten_row_good|]. split; [exact ten_row_means|].
  intros fmt R. exists (printed fmt (product [Dh 0 0.1 0 0])). split.
  - unfold kdl_from_csv.
    replace (read_lengths mm_text2 [] (lengths_file "l" one_ten)) with (Some [(tx "l1", tx "0.1"); (tx "l10", tx "0.2")]) by reflexivity.
    replace (table_params evaluator3 (fun d => d) [(tx "l1", tx "0.1"); (tx "l10", tx "0.2")] (map (dh_row "l") ten_row)) with (Some [Dh 0 0.1 0 0]) by reflexivity.
    now rewrite pose_product.
  - intros (nums & E & F). unfold printed in E. injection E as E.
    match type of E with ?l = _ => change l with (removelast l ++ [last l []]) in E end.
    apply app_inj_tail in E. destruct E as [<- _]. cbn [removelast] in F. unfold entries in F.
    destruct (f2_nth _ _ _ 11 _ _ F eq_refl eq_refl) as (y & Y & B).
    destruct (shown_close fmt (vz (fp (product [Dh 0 0.1 0 0]))) R) as (y' & Y' & B').
    assert (y = y') by (eapply reads_unique; eassumption). subst y'. clear - B B'.
    assert (forall d, vz (fp (product [Dh 0 d 0 0])) = d) as V.
    { intros d. unfold product. cbn. ring. }
    rewrite V in B, B'.
    assert (/ 2 / 10 ^ 15 < / 100) as S.
    { cbn. lra. }
    assert (forall a b, Rabs (a - b) <= / 2 / 10 ^ 15 -> b - / 100 < a < b + / 100) as K.
    { intros a b H. unfold Rabs in H. destruct (Rcase_abs (a - b)); lra. }
    apply K in B. apply K in B'. lra.
Qed.
