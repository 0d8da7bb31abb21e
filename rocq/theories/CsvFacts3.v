(** Facts about kdl-from-csv.py: lengths, rows, the table and its pose. *)
From Coq Require Import Reals List Bool ZArith Ascii String Lia Lra Permutation.
From Verif Require Import Kdl KdlFacts Config Csv CsvSpec CsvFacts CsvFacts2.
Import ListNotations.
Local Open Scope nat_scope.
Local Notation S := Datatypes.S.
Local Notation length := List.length.

Lemma put_new d k v : ~ In k (map fst d) -> put d k v = d ++ [(k, v)].
Proof.
  induction d as [|[k' v'] d IH]; cbn; intros N; [reflexivity|].
  destruct (list_eq_dec ascii_dec k k') as [->|C]; [elim N; now left|].
  f_equal. apply IH. intros I. apply N. now right.
Qed.

Definition entries_of (table : text -> text) (file : list (text * text)) : list (text * text) :=
  map (fun e => (fst e, table (fst e))) file.

Lemma read_lengths_named metres letter table file : good_lengths metres letter table file ->
  read_lengths metres [] (lengths_file letter file) = Some (named letter (entries_of table file)).
Proof.
  intros (_ & _ & N & A).
  enough (forall d, (forall n, In n (map fst d) -> In n (map fst file) -> False) ->
    read_lengths metres (named letter d) (lengths_file letter file) = Some (named letter (d ++ entries_of table file))) as G.
  { apply (G []). intros n []. }
  induction file as [|[n mm] file IH]; intros d D; cbn.
  - now rewrite app_nil_r.
  - inversion A as [|? ? (A1 & A2 & A3) A4]; subst. cbn [fst snd] in A1, A2, A3. rewrite A2.
    inversion N as [|? ? N1 N2]; subst.
    rewrite put_new.
    + change (named letter d ++ [(letter :: n, table n)]) with (named letter d ++ named letter [(n, table n)]).
      rewrite named_app. rewrite (IH N2 A4).
      * now rewrite <- app_assoc.
      * intros m I J. rewrite map_app in I. apply in_app_or in I. destruct I as [I|[E|[]]].
        -- apply (D m I). now right.
        -- cbn in E. subst m. contradiction.
    + intros I. unfold named in I. rewrite map_map in I. cbn [fst] in I. apply in_map_iff in I.
      destruct I as ([m v] & E & I). cbn in E. injection E as ->.
      apply (D n); [|now left]. apply in_map_iff. now exists (n, v).
Qed.

Lemma letter_facts letter : is_letter letter -> ~ isdig letter /\ letter <> "0"%char /\ letter <> "."%char.
Proof.
  intros H. unfold isdig. repeat split; [unfold is_letter in H; lia | |];
    intros ->; unfold is_letter in H; cbn in H; lia.
Qed.
Lemma q_facts : ~ isdig "q" /\ "q"%char <> "0"%char /\ "q"%char <> "."%char.
Proof. apply letter_facts. unfold is_letter. cbn. lia. Qed.

Section params.
Variables (metres : text -> option text) (ev : text -> option R) (order : dict -> dict).
Variables (letter : ascii) (table : text -> text) (file : list (text * text)).
Hypothesis G : good_lengths metres letter table file.
Hypothesis P : forall d, Permutation (order d) d.
Let lens := named letter (entries_of table file).
Hypothesis LF : forall e, order lens = named letter e -> longer_first (map fst e).
Let numbers := map fst file.
Let letters := [letter; "q"%char].

Lemma letters_facts l : In l letters -> ~ isdig l /\ l <> "0"%char /\ l <> "."%char.
Proof.
  destruct G as (L & _). intros [<-|[<-|[]]]; [now apply letter_facts | apply q_facts].
Qed.
Lemma numbers_digs : Forall digs numbers.
Proof.
  destruct G as (_ & _ & _ & A). apply Forall_map. eapply Forall_impl; [|exact A].
  cbn. intros e ((D & _) & _). exact D.
Qed.

Lemma q_letter : Ascii.eqb "q" letter = false.
Proof. destruct G as (_ & Q & _). apply Ascii.eqb_neq. congruence. Qed.
Lemma letter_q : Ascii.eqb letter "q" = false.
Proof. destruct G as (_ & Q & _). now apply Ascii.eqb_neq. Qed.

Lemma joints_in ps n : well_formed letter numbers ps -> In (Nm "q" n) (map (to_tok letter) ps) ->
  exists i, 1 <= i <= 27 /\ n = str_int i.
Proof.
  intros W I. assert (Q := letter_q). induction ps as [|p ps IH]; [destruct I|].
  cbn [well_formed] in W. destruct W as (W1 & _ & W2). destruct I as [I|I]; [|now apply IH].
  destruct p as [m|i|t]; cbn in I; [|injection I as <-; now exists i|discriminate].
  injection I as E _. rewrite E in Q. discriminate.
Qed.
Lemma lengths_in ps n : well_formed letter numbers ps -> In (Nm letter n) (map (to_tok letter) ps) ->
  In n numbers.
Proof.
  intros W I. assert (Q := letter_q). induction ps as [|p ps IH]; [destruct I|].
  cbn [well_formed] in W. destruct W as (W1 & _ & W2). destruct I as [I|I]; [|now apply IH].
  destruct p as [m|i|t]; cbn in I; [injection I as <-; exact W1| |discriminate].
  injection I as E _. rewrite <- E in Q. discriminate.
Qed.

(** the text of a cell after replacing joints, then lengths *)
Definition length_value (p : tok) : tok :=
  match p with Nm l n => if Ascii.eqb letter l then Ot (table n) else p | Ot _ => p end.
Lemma replace_lengths ps : ok letters ps -> (forall n, In (Nm letter n) ps -> In n numbers) ->
  replace_all (order lens) (flat ps) = flat (map length_value ps).
Proof.
  intros O A. destruct (named_perm _ _ _ (P lens)) as (e & E & Pe).
  assert (LFe := LF e E). rewrite E.
  assert (forall n v, In (n, v) e -> v = table n /\ In (n, v) (entries_of table file)) as V.
  { intros n v I. apply (Permutation_in _ Pe) in I. split; [|exact I].
    apply in_map_iff in I. destruct I as (x & Ex & _). now injection Ex as <- <-. }
  assert (forall n, In n numbers -> In n (map fst e)) as K.
  { intros n I. apply (Permutation_in (l := map fst (entries_of table file))).
    - apply Permutation_sym. now apply Permutation_map.
    - unfold entries_of. rewrite map_map. exact I. }
  rewrite (replace_dict letters letter); auto.
  - f_equal. apply map_ext_in. intros p I. destruct p as [l n|t]; [|reflexivity].
    cbn [final length_value]. destruct (Ascii.eqb letter l) eqn:El; [|reflexivity].
    apply Ascii.eqb_eq in El. subst l. rewrite (lookup_const _ n table); [reflexivity | | now apply K, A].
    intros m v J. now apply V in J.
  - intros l I. now apply letters_facts.
  - now left.
  - apply Forall_forall. intros [n v] I. cbn [fst snd]. destruct (V n v I) as (-> & J).
    apply in_map_iff in J. destruct J as (x & Ex & J). injection Ex as <-.
    destruct G as (_ & _ & _ & A'). rewrite Forall_forall in A'. destruct (A' x J) as ((D & _) & _ & N1 & N2).
    split; [exact D|]. now repeat constructor.
Qed.

Lemma both_value ps : flat (map length_value (map joint_zero (map (to_tok letter) ps))) = evaluate table ps.
Proof.
  assert (Q := q_letter). induction ps as [|p ps IH]; [reflexivity|].
  cbn [map flat evaluate flat_map]. unfold flat, evaluate in IH. rewrite IH. f_equal.
  destruct p as [n|i|t]; cbn [to_tok joint_zero length_value valued flat1].
  - rewrite Q. cbn [length_value]. now rewrite Ascii.eqb_refl.
  - reflexivity.
  - reflexivity.
Qed.
Lemma joints_value ps : no_lengths ps -> flat (map joint_zero (map (to_tok letter) ps)) = evaluate table ps.
Proof.
  induction ps as [|p ps IH]; intros N; [reflexivity|].
  cbn [map flat evaluate flat_map]. unfold flat, evaluate in IH. rewrite IH; [|intros n I; apply (N n); now right].
  f_equal. destruct p as [n|i|t]; cbn [to_tok joint_zero valued flat1]; try reflexivity.
  elim (N n). now left.
Qed.
Lemma lengths_value ps : no_joints ps -> flat (map length_value (map (to_tok letter) ps)) = evaluate table ps.
Proof.
  induction ps as [|p ps IH]; intros N; [reflexivity|].
  cbn [map flat evaluate flat_map]. unfold flat, evaluate in IH. rewrite IH; [|intros n I; apply (N n); now right].
  f_equal. destruct p as [n|i|t]; cbn [to_tok length_value valued flat1]; try reflexivity.
  - now rewrite Ascii.eqb_refl.
  - elim (N i). now left.
Qed.
Lemma no_value ps : no_lengths ps -> no_joints ps -> write letter ps = evaluate table ps.
Proof.
  induction ps as [|p ps IH]; intros N M; [reflexivity|].
  cbn [write evaluate flat_map]. unfold write, evaluate in IH.
  rewrite IH; [|intros n I; apply (N n); now right | intros n I; apply (M n); now right].
  f_equal. destruct p as [n|i|t]; [elim (N n); now left | elim (M i); now left | reflexivity].
Qed.

Lemma zero_lengths ps n : In (Nm letter n) (map joint_zero ps) -> In (Nm letter n) ps.
Proof.
  intros I. apply in_map_iff in I. destruct I as (p & E & I).
  destruct p as [l m|t]; cbn [joint_zero] in E; [|discriminate]. destruct (Ascii.eqb "q" l); [discriminate|].
  now rewrite E in I.
Qed.

Lemma row_meaning c l : good_row letter numbers c -> row_means ev table c l ->
  row_params ev order lens (dh_row letter c) = Some l.
Proof.
  intros ((W1 & N1) & W2 & (W3 & N3) & (N4 & M4)) (E1 & E2 & E3 & E4).
  assert (letter <> "q"%char) as LQ by (destruct G as (_ & Q & _); exact Q).
  assert (D := numbers_digs).
  assert (O := fun ps => to_tok_ok letter numbers ps LQ D).
  assert (forall ps, well_formed letter numbers ps ->
    replace_all (order one_digit_joints) (replace_all (order two_digit_joints) (write letter ps))
      = flat (map joint_zero (map (to_tok letter) ps))) as J.
  { intros ps W. rewrite write_flat. apply (replace_joints letters); auto.
    - apply letters_facts.
    - right; now left.
    - intros n I. now apply (joints_in ps). }
  assert (ZL : forall l', In l' letters -> l' <> "0"%char /\ l' <> "."%char).
  { intros l' I. destruct (letters_facts l' I) as (_ & A & B). now split. }
  unfold row_params, dh_row. rewrite (J _ W1), (J _ W2).
  rewrite (replace_lengths (map joint_zero (map (to_tok letter) (x_d c)))).
  2: { apply joint_zero_ok; [exact ZL | now apply O]. }
  2: { intros n I. apply zero_lengths in I. now apply (lengths_in (x_d c)). }
  rewrite (write_flat letter (x_a c)). rewrite (replace_lengths (map (to_tok letter) (x_a c))).
  2: { now apply O. }
  2: { intros n I. now apply (lengths_in (x_a c)). }
  rewrite both_value, joints_value, lengths_value, no_value by assumption.
  rewrite E1, E2, E3, E4. now destruct l.
Qed.

Lemma table_meaning rows links : Forall (good_row letter numbers) rows ->
  Forall2 (row_means ev table) rows links ->
  table_params ev order lens (map (dh_row letter) rows) = Some links.
Proof.
  intros A F. induction F as [|c l rows links M F IH]; [reflexivity|].
  inversion A; subst. cbn [map table_params]. rewrite (row_meaning c l), IH; auto.
Qed.
End params.
