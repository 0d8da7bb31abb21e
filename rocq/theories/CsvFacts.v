(** Facts about the texts of kdl-from-csv.py: replacing the names in a cell. *)
From Coq Require Import Reals List Bool ZArith Ascii String Lia Permutation.
From Verif Require Import Kdl Config Csv CsvSpec.
Import ListNotations.
Local Open Scope nat_scope.
Local Notation S := Datatypes.S.
Local Notation length := List.length.

Definition isdig (c : ascii) : Prop := 48 <= nat_of_ascii c <= 57.
Definition digs (t : text) : Prop := Forall isdig t.

(** a cell as a sequence of names (a letter and digits) and other text *)
Inductive tok := Nm (l : ascii) (n : text) | Ot (t : text).
Definition flat1 (p : tok) : text := match p with Nm l n => l :: n | Ot t => t end.
Definition flat (ps : list tok) : text := flat_map flat1 ps.
Definition sub (l : ascii) (n v : text) (p : tok) : tok :=
  match p with
  | Nm l' n' => if Ascii.eqb l l' then if list_eq_dec ascii_dec n n' then Ot v else p else p
  | Ot _ => p
  end.
Definition follows (ps : list tok) : Prop :=
  match ps with [] => True | Ot t :: _ => nondigit_first t | Nm _ _ :: _ => False end.
Fixpoint ok (letters : list ascii) (ps : list tok) : Prop :=
  match ps with
  | [] => True
  | p :: ps' =>
      match p with
      | Nm l n => In l letters /\ digs n /\ follows ps'
      | Ot t => Forall (fun l => ~ In l t) letters
      end /\ ok letters ps'
  end.

Lemma starts_app k s r : s = k ++ r -> starts k s = true.
Proof.
  revert s; induction k as [|a k IH]; intros s H; cbn; [reflexivity|].
  subst s; cbn. rewrite Ascii.eqb_refl; cbn. now apply IH.
Qed.
Lemma starts_inv k : forall s, starts k s = true -> exists r, s = k ++ r.
Proof.
  induction k as [|a k IH]; intros s H; [now exists s|].
  destruct s as [|b s]; cbn in H; [discriminate|].
  apply andb_prop in H. destruct H as [E H]. apply Ascii.eqb_eq in E. subst b.
  destruct (IH _ H) as [r E]. exists r. now rewrite E.
Qed.

Lemma replace_other l n v o t : ~ In l o ->
  replace_from (l :: n) v (o ++ t) 0 = o ++ replace_from (l :: n) v t 0.
Proof.
  induction o as [|c o IH]; intros H; [reflexivity|].
  cbn [app replace_from starts].
  destruct (Ascii.eqb l c) eqn:E.
  - apply Ascii.eqb_eq in E. exfalso. apply H. now left.
  - cbn [andb]. f_equal. apply IH. intros I. apply H. now right.
Qed.
Lemma replace_skip k v a t : replace_from k v (a ++ t) (length a) = replace_from k v t 0.
Proof. induction a as [|c a IH]; [reflexivity | cbn; apply IH]. Qed.

(** digits followed by something that is not a digit *)
Lemma digs_prefix : forall n m t, digs n -> (t = [] \/ nondigit_first t) ->
  starts n (m ++ t) = true -> exists r, m = n ++ r.
Proof.
  induction n as [|a n IH]; intros m t D F H; [now exists m|].
  destruct m as [|b m].
  - exfalso. destruct F as [->|F]; [discriminate|].
    destruct t as [|c t]; [contradiction|]. cbn in H, F.
    apply andb_prop in H. destruct H as [E _]. apply Ascii.eqb_eq in E. subst c.
    inversion D. contradiction.
  - cbn in H. apply andb_prop in H. destruct H as [E H]. apply Ascii.eqb_eq in E. subst b.
    inversion D; subst. destruct (IH m t) as [r ->]; auto. now exists r.
Qed.

Lemma digs_no l n : ~ isdig l -> digs n -> ~ In l n.
Proof. intros N D I. unfold digs in D. rewrite Forall_forall in D. now apply N, D. Qed.

Lemma follows_flat ps letters : follows ps -> ok letters ps -> flat ps = [] \/ nondigit_first (flat ps).
Proof.
  destruct ps as [|[l n|t] ps]; cbn; intros F O; [now left | contradiction |].
  right. destruct t; [contradiction|]. exact F.
Qed.

Lemma replace_toks letters l n v ps :
  (forall l', In l' letters -> ~ isdig l') -> In l letters -> digs n ->
  ok letters ps ->
  (forall m r, In (Nm l m) ps -> m = n ++ r -> r = []) ->
  replace (l :: n) v (flat ps) = flat (map (sub l n v) ps).
Proof.
  intros L I D. unfold replace. induction ps as [|p ps IH]; intros O A; [reflexivity|].
  cbn [ok] in O. destruct O as [P O].
  assert (IH' := IH O (fun m r H => A m r (or_intror H))). clear IH.
  destruct p as [l' m|t]; cbn [flat flat_map flat1 map sub].
  - fold (flat ps). destruct P as (I' & D' & F).
    destruct (follows_flat _ _ F O) as [F'|F'].
    all: cbn [app replace_from].
    all: destruct (Ascii.eqb l l') eqn:E; [apply Ascii.eqb_eq in E; subst l'|].
    all: cbn [starts]; try (rewrite Ascii.eqb_refl); try rewrite E; cbn [andb].
    + destruct (starts n (m ++ flat ps)) eqn:St.
      * destruct (digs_prefix n m (flat ps) D (or_introl F') St) as [r Er].
        assert (r = []) by (apply (A m r); [now left | exact Er]). subst r. rewrite app_nil_r in Er. subst m.
        destruct (list_eq_dec ascii_dec n n) as [_|C]; [|now elim C].
        cbn [flat flat_map flat1 app]. f_equal.
        replace (length (l :: n) - 1) with (length n) by (cbn; lia).
        now rewrite replace_skip.
      * destruct (list_eq_dec ascii_dec n m) as [C|C].
        { exfalso. subst m. rewrite (starts_app n (n ++ flat ps) (flat ps)) in St; [discriminate | reflexivity]. }
        cbn [flat flat_map flat1 app]. f_equal. rewrite replace_other; [now f_equal|].
        apply digs_no; [now apply L | assumption].
    + cbn [flat flat_map flat1 app]. f_equal. rewrite replace_other; [now f_equal|].
      apply digs_no; [now apply L | assumption].
    + destruct (starts n (m ++ flat ps)) eqn:St.
      * destruct (digs_prefix n m (flat ps) D (or_intror F') St) as [r Er].
        assert (r = []) by (apply (A m r); [now left | exact Er]). subst r. rewrite app_nil_r in Er. subst m.
        destruct (list_eq_dec ascii_dec n n) as [_|C]; [|now elim C].
        cbn [flat flat_map flat1 app]. f_equal.
        replace (length (l :: n) - 1) with (length n) by (cbn; lia).
        now rewrite replace_skip.
      * destruct (list_eq_dec ascii_dec n m) as [C|C].
        { exfalso. subst m. rewrite (starts_app n (n ++ flat ps) (flat ps)) in St; [discriminate | reflexivity]. }
        cbn [flat flat_map flat1 app]. f_equal. rewrite replace_other; [now f_equal|].
        apply digs_no; [now apply L | assumption].
    + cbn [flat flat_map flat1 app]. f_equal. rewrite replace_other; [now f_equal|].
      apply digs_no; [now apply L | assumption].
  - fold (flat ps). rewrite replace_other; [now f_equal|].
    rewrite Forall_forall in P. now apply P.
Qed.

Lemma ok_sub letters l n v ps : Forall (fun l' => ~ In l' v) letters -> ok letters ps -> ok letters (map (sub l n v) ps).
Proof.
  intros V. induction ps as [|p ps IH]; intros O; [exact I|].
  cbn [ok] in O. destruct O as [P O]. cbn [map ok]. split; [|now apply IH].
  destruct p as [l' m|t]; cbn [sub]; [|exact P].
  destruct P as (I' & D' & F).
  assert (follows (map (sub l n v) ps)) as F2.
  { clear - F. destruct ps as [|[a b|t] ps]; cbn in F |- *; [exact I | contradiction | exact F]. }
  destruct (Ascii.eqb l l'); [destruct (list_eq_dec ascii_dec n m)|]; auto.
Qed.

(** replacing all the names of a dictionary, one after the other *)
Definition named (l : ascii) (d : list (text * text)) : dict := map (fun e => (l :: fst e, snd e)) d.
Fixpoint lookup (d : list (text * text)) (n : text) : option text :=
  match d with
  | [] => None
  | (m, v) :: d' => if list_eq_dec ascii_dec m n then Some v else lookup d' n
  end.
Definition final (l : ascii) (d : list (text * text)) (p : tok) : tok :=
  match p with
  | Nm l' n => if Ascii.eqb l l' then match lookup d n with Some v => Ot v | None => p end else p
  | Ot _ => p
  end.

Lemma replace_dict letters l : (forall l', In l' letters -> ~ isdig l') -> In l letters ->
  forall d ps,
  Forall (fun e => digs (fst e) /\ Forall (fun l' => ~ In l' (snd e)) letters) d ->
  longer_first (map fst d) ->
  ok letters ps ->
  (forall n, In (Nm l n) ps -> In n (map fst d)) ->
  replace_all (named l d) (flat ps) = flat (map (final l d) ps).
Proof.
  intros L I. induction d as [|[n v] d IH]; intros ps D LF O A.
  - cbn. f_equal. rewrite <- (map_id ps) at 1. apply map_ext_in. intros p Hp.
    destruct p as [l' m|t]; [|reflexivity]. cbn. destruct (Ascii.eqb l l') eqn:E; [|reflexivity].
    apply Ascii.eqb_eq in E. subst l'. destruct (A m Hp).
  - cbn [named map fst snd]. unfold replace_all. cbn [fold_left fst snd].
    inversion D as [|? ? [D1 D2] D3]; subst. cbn [fst snd] in D1, D2.
    cbn [map fst longer_first] in LF. destruct LF as [LF1 LF2].
    rewrite (replace_toks letters l n v ps L I D1 O).
    + fold (named l d). change (fold_left (fun (s : text) (e : text * text) => replace (fst e) (snd e) s) (named l d) (flat (map (sub l n v) ps)))
        with (replace_all (named l d) (flat (map (sub l n v) ps))).
      rewrite IH; auto.
      * rewrite map_map. f_equal. apply map_ext. intros p.
        destruct p as [l' m|t]; [|reflexivity]. cbn [sub final lookup].
        destruct (Ascii.eqb l l') eqn:E.
        -- destruct (list_eq_dec ascii_dec n m) as [->|C]; cbn [final]; [reflexivity|].
           now rewrite E.
        -- cbn [final]. now rewrite E.
      * now apply ok_sub.
      * intros m Hm. apply in_map_iff in Hm. destruct Hm as (p & E & Hp).
        destruct p as [l' m'|t]; cbn [sub] in E; [|discriminate].
        destruct (Ascii.eqb l l') eqn:El.
        -- destruct (list_eq_dec ascii_dec n m') as [?|C]; [discriminate|].
           injection E as -> ->. apply A in Hp. cbn in Hp. destruct Hp; [now elim C | assumption].
        -- injection E as -> ->. rewrite Ascii.eqb_refl in El. discriminate.
    + intros m r Hm Em. destruct (A m Hm) as [E|E].
      * cbn in E. rewrite <- E in Em. apply (app_inv_head n). rewrite app_nil_r. now symmetry.
      * rewrite Forall_forall in LF1. now apply (LF1 m E).
Qed.
