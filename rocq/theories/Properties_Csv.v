(** The script kdl-from-csv.py. *)
From Coq Require Import Reals ZArith List Bool Ascii String Permutation.
From Verif Require Import Kdl Config Csv CsvSpec CsvFacts4 CsvFacts5 CsvExamples.
Import ListNotations.
Open Scope R_scope.

(** C151: the matrix printed is the pose at rest of the chain described by the two files: joints at zero, and for each length its
    value in the file.  What is proved: if no name of a length begins another one, in whatever order Python visits them. *)
Theorem C151_pose_partial : forall metres ev order fmt letter table file rows links,
  rounds15 fmt -> good_lengths metres letter table file ->
  (forall d, Permutation (order d) d) ->
  none_begins_another (map fst file) ->
  Forall (good_row letter (map fst file)) rows ->
  Forall2 (row_means ev table) rows links ->
  exists words, kdl_from_csv metres ev order fmt (lengths_file letter file) (map (dh_row letter) rows) = Some words
    /\ shows words (product links).
Proof. exact script_any_order. Qed.
Print Assumptions C151_pose_partial.
Example C151_pose_example : rounds15 round15 /\ good_lengths mm_text "l" in_metres two_lengths /\ none_begins_another (map fst two_lengths) /\
  Forall (good_row "l" (map fst two_lengths)) two_rows /\ Forall2 (row_means evaluator in_metres) two_rows two_links.
Proof.
  split; [exact round15_rounds|]. split; [exact two_lengths_good|]. split; [exact two_lengths_free|].
  split; [exact two_rows_good | exact two_rows_mean].
Qed.
(** C151: or if they are visited in the order of the file and the longer name comes first. *)
Theorem C151_sorted_partial : forall metres ev fmt letter table file rows links,
  rounds15 fmt -> good_lengths metres letter table file ->
  longer_first (map fst file) ->
  Forall (good_row letter (map fst file)) rows ->
  Forall2 (row_means ev table) rows links ->
  exists words, kdl_from_csv metres ev (fun d => d) fmt (lengths_file letter file) (map (dh_row letter) rows) = Some words
    /\ shows words (product links).
Proof. exact script_in_order. Qed.
Print Assumptions C151_sorted_partial.
Example C151_sorted_example : rounds15 round15 /\ good_lengths mm_text2 "l" in_metres2 ten_one /\ longer_first (map fst ten_one) /\
  Forall (good_row "l" (map fst ten_one)) ten_row /\ Forall2 (row_means evaluator3 in_metres2) ten_row [Dh 0 0.2 0 0].
Proof.
  split; [exact round15_rounds|]. split; [exact ten_one_good|]. split; [exact ten_one_sorted|].
  split; [exact ten_row_good2 | exact ten_row_means].
Qed.
(** C151: otherwise another length is taken: l10 is taken for l1 and a zero. *)
Theorem C151_prefix_refuted : exists metres ev letter table file rows links,
  good_lengths metres letter table file /\ Forall (good_row letter (map fst file)) rows
  /\ Forall2 (row_means ev table) rows links
  /\ forall fmt, rounds15 fmt ->
     exists words, kdl_from_csv metres ev (fun d => d) fmt (lengths_file letter file) (map (dh_row letter) rows) = Some words
       /\ ~ shows words (product links).
Proof. exact prefix_refuted. Qed.
Print Assumptions C151_prefix_refuted.

(** C152: whenever the script prints a matrix, its numbers have no needless characters, and read back as an H0 or HN of a
    configuration they stand for a rigid motion, to 15 decimals. *)
Theorem C152_printed : forall metres ev order fmt lengths_rows dh_rows words, rounds15 fmt ->
  kdl_from_csv metres ev order fmt lengths_rows dh_rows = Some words ->
  exists nums h, words = tx "(" :: nums ++ [tx ")"] /\ List.length nums = 16%nat /\ Forall tidy nums /\ rigid h
    /\ (exists ys, Forall2 reads nums ys)
    /\ forall ys, Forall2 reads nums ys -> same15 (matrix_frame (Some ys)) h.
Proof. exact script_printed. Qed.
Print Assumptions C152_printed.
Example C152_printed_example : rounds15 round15 /\ exists words,
  kdl_from_csv mm_text evaluator (fun d => d) round15 (lengths_file "l" two_lengths) (map (dh_row "l") two_rows) = Some words.
Proof.
  split; [exact round15_rounds|].
  destruct (script_any_order mm_text evaluator (fun d => d) round15 "l" in_metres two_lengths two_rows two_links
    round15_rounds two_lengths_good id_perm two_lengths_free two_rows_good two_rows_mean) as (words & E & _).
  exists words. exact E.
Qed.
