(** Facts about kdl-from-csv.py: the parameters read from the files, and the pose. *)
From Coq Require Import Reals List Bool ZArith Ascii String Lia Lra Permutation.
From Verif Require Import Kdl KdlFacts Config Csv CsvSpec CsvFacts.
Import ListNotations.
Local Open Scope nat_scope.
Local Notation S := Datatypes.S.
Local Notation length := List.length.

Definition to_tok (letter : ascii) (p : piece) : tok :=
  match p with
  | Length n => Nm letter n
  | Joint i => Nm "q" (str_int i)
  | Other t => Ot t
  end.
Lemma write_flat letter ps : write letter ps = flat (map (to_tok letter) ps).
Proof.
  induction ps as [|p ps IH]; [reflexivity|]. cbn [write flat_map map flat].
  unfold write, flat in IH. rewrite IH. now destruct p.
Qed.

Definition isdigb (c : ascii) : bool := Nat.leb 48 (nat_of_ascii c) && Nat.leb (nat_of_ascii c) 57.
Lemma isdigb_digs t : forallb isdigb t = true -> digs t.
Proof.
  intros H. apply Forall_forall. intros c I. rewrite forallb_forall in H. apply H in I.
  unfold isdigb in I. apply andb_prop in I. destruct I as [A B].
  apply Nat.leb_le in A, B. split; assumption.
Qed.
Lemma str_int_digs i : 1 <= i <= 27 -> digs (str_int i).
Proof.
  intros H. apply isdigb_digs.
  assert (forallb (fun i => forallb isdigb (str_int i)) (seq 1 27) = true) as A by reflexivity.
  rewrite forallb_forall in A. apply A. apply in_seq. lia.
Qed.

Lemma to_tok_ok letter numbers ps : letter <> "q"%char -> Forall digs numbers ->
  well_formed letter numbers ps -> ok [letter; "q"%char] (map (to_tok letter) ps).
Proof.
  intros L D. induction ps as [|p ps IH]; intros W; [exact I|].
  cbn [well_formed] in W. destruct W as (P & F & W). cbn [map ok]. split; [|now apply IH].
  assert (match p with Other _ => True | _ => follows (map (to_tok letter) ps) end) as F2.
  { destruct p; auto; destruct ps as [|[ | | ] ps]; cbn in F |- *; auto. }
  destruct p as [n|i|t]; cbn [to_tok].
  - split; [now left|]. split; [|exact F2]. rewrite Forall_forall in D. now apply D.
  - split; [right; now left|]. split; [now apply str_int_digs | exact F2].
  - destruct P. now repeat constructor.
Qed.

(** a shorter name never begins a longer one *)
Lemma longer_first_lengths l1 l2 a :
  Forall (fun n : text => length n = S a) l1 -> Forall (fun n : text => length n = a) l2 ->
  longer_first (l1 ++ l2).
Proof.
  intros H1 H2. induction H1 as [|n l1 E H1 IH].
  - cbn [app]. induction H2 as [|m l2 E H2 IH]; [exact I|]. cbn. split; [|exact IH].
    eapply Forall_impl; [|exact H2]. cbn. intros b Eb r ->. rewrite app_length in Eb.
    destruct r; [reflexivity | cbn in Eb; lia].
  - cbn. split; [|exact IH]. apply Forall_app. split.
    + eapply Forall_impl; [|exact H1]. cbn. intros b Eb r ->. rewrite app_length in Eb.
      destruct r; [reflexivity | cbn in Eb; lia].
    + eapply Forall_impl; [|exact H2]. cbn. intros b Eb r ->. rewrite app_length in Eb. lia.
Qed.

Lemma lookup_const d n f : (forall m v, In (m, v) d -> v = f m) -> In n (map fst d) -> lookup d n = Some (f n).
Proof.
  intros A. induction d as [|[m v] d IH]; cbn; intros I; [contradiction|].
  destruct (list_eq_dec ascii_dec m n) as [->|C].
  - rewrite (A n v); [reflexivity | now left].
  - destruct I as [->|I]; [now elim C|]. apply IH; auto. intros; apply A; now right.
Qed.

Lemma named_perm l d d' : Permutation d' (named l d) -> exists e, d' = named l e /\ Permutation e d.
Proof.
  intros P. apply Permutation_map_inv in P. destruct P as (e & -> & P). now exists e.
Qed.

Lemma replace_all_app a b s : replace_all (a ++ b) s = replace_all b (replace_all a s).
Proof. unfold replace_all. now rewrite fold_left_app. Qed.
Lemma named_app l a b : named l a ++ named l b = named l (a ++ b).
Proof. unfold named. now rewrite map_app. Qed.

(** ** joints *)
Definition numbered (l : list nat) : list (text * text) := map (fun i => (str_int i, tx "0.0")) l.
Lemma joints_named l : map (fun i => (joint_name i, tx "0.0")) l = named "q" (numbered l).
Proof. unfold named, numbered. rewrite map_map. reflexivity. Qed.

Definition joint_zero (p : tok) : tok :=
  match p with Nm l n => if Ascii.eqb "q" l then Ot (tx "0.0") else p | Ot _ => p end.

Lemma numbered_entry l e n v : Permutation e (numbered l) -> In (n, v) e ->
  v = tx "0.0" /\ exists i, In i l /\ n = str_int i.
Proof.
  intros P I. apply (Permutation_in _ P) in I. apply in_map_iff in I.
  destruct I as (i & E & I). injection E as <- <-. split; [reflexivity | now exists i].
Qed.

Lemma replace_joints letters order ps : (forall d, Permutation (order d) d) ->
  (forall l, In l letters -> ~ isdig l /\ l <> "0"%char /\ l <> "."%char) -> In "q"%char letters ->
  ok letters ps ->
  (forall n, In (Nm "q" n) ps -> exists i, 1 <= i <= 27 /\ n = str_int i) ->
  replace_all (order one_digit_joints) (replace_all (order two_digit_joints) (flat ps)) = flat (map joint_zero ps).
Proof.
  intros P L Q O A. rewrite <- replace_all_app.
  assert (P2 := P two_digit_joints). unfold two_digit_joints in P2 at 2. rewrite joints_named in P2.
  assert (P1 := P one_digit_joints). unfold one_digit_joints in P1 at 2. rewrite joints_named in P1.
  apply named_perm in P1, P2. destruct P1 as (e1 & -> & P1). destruct P2 as (e2 & -> & P2).
  rewrite named_app.
  assert (forall n v, In (n, v) (e2 ++ e1) -> v = tx "0.0" /\ exists i, 1 <= i <= 27 /\ n = str_int i) as E.
  { intros n v I. apply in_app_or in I. destruct I as [I|I].
    - destruct (numbered_entry _ _ _ _ P2 I) as (V & i & Hi & N). apply in_seq in Hi. split; [exact V|].
      exists i. split; [lia | exact N].
    - destruct (numbered_entry _ _ _ _ P1 I) as (V & i & Hi & N). apply in_seq in Hi. split; [exact V|].
      exists i. split; [lia | exact N]. }
  assert (forall n, In (Nm "q" n) ps -> In n (map fst (e2 ++ e1))) as K.
  { intros n I. destruct (A n I) as (i & Hi & ->). rewrite map_app. apply in_or_app.
    destruct (le_lt_dec 10 i) as [G|G].
    - left. apply (Permutation_in (l := map fst (numbered (seq 10 18)))).
      + apply Permutation_sym. now apply Permutation_map.
      + unfold numbered. rewrite map_map. cbn [fst]. apply in_map. apply in_seq. lia.
    - right. apply (Permutation_in (l := map fst (numbered (seq 1 9)))).
      + apply Permutation_sym. now apply Permutation_map.
      + unfold numbered. rewrite map_map. cbn [fst]. apply in_map. apply in_seq. lia. }
  rewrite (replace_dict letters "q"); auto.
  - f_equal. apply map_ext_in. intros p I. destruct p as [l n|t]; [|reflexivity].
    cbn [final joint_zero]. destruct (Ascii.eqb "q" l) eqn:El; [|reflexivity].
    apply Ascii.eqb_eq in El. subst l. rewrite (lookup_const _ n (fun _ => tx "0.0")); [reflexivity | |now apply K].
    intros m v I'. now apply E in I'.
  - intros l I. now apply L.
  - apply Forall_forall. intros [n v] I. cbn [fst snd]. destruct (E n v I) as (-> & i & Hi & ->).
    split; [now apply str_int_digs|]. apply Forall_forall. intros l Il Z.
    destruct (L l Il) as (_ & L1 & L2). cbn in Z. intuition congruence.
  - rewrite map_app. apply (longer_first_lengths _ _ 1).
    + apply Forall_forall. intros n I. apply in_map_iff in I. destruct I as ([m v] & <- & I). cbn [fst].
      destruct (numbered_entry _ _ _ _ P2 I) as (_ & i & Hi & ->). apply in_seq in Hi.
      unfold str_int. destruct (Nat.ltb_spec i 10); [lia | reflexivity].
    + apply Forall_forall. intros n I. apply in_map_iff in I. destruct I as ([m v] & <- & I). cbn [fst].
      destruct (numbered_entry _ _ _ _ P1 I) as (_ & i & Hi & ->). apply in_seq in Hi.
      unfold str_int. destruct (Nat.ltb_spec i 10); [reflexivity | lia].
Qed.

Lemma joint_zero_ok letters ps : (forall l, In l letters -> l <> "0"%char /\ l <> "."%char) ->
  ok letters ps -> ok letters (map joint_zero ps).
Proof.
  intros L. induction ps as [|p ps IH]; intros O; [exact I|].
  cbn [ok] in O. destruct O as [P O]. cbn [map ok]. split; [|now apply IH].
  destruct p as [l' m|t]; cbn [joint_zero]; [|exact P].
  destruct P as (I' & D' & F).
  assert (follows (map joint_zero ps)) as F2.
  { clear - F. destruct ps as [|[a b|t] ps]; cbn in F |- *; [exact I | contradiction | exact F]. }
  destruct (Ascii.eqb "q" l'); [|auto].
  apply Forall_forall. intros l Il Z. apply L in Il. cbn in Z. intuition congruence.
Qed.
