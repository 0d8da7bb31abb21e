(** Facts about kdl-from-csv.py: the pose of the chain, the numbers printed, the whole script. *)
From Coq Require Import Reals List Bool ZArith Ascii String Lia Lra Permutation.
From Verif Require Import Kdl KdlFacts Config Csv CsvSpec CsvFacts CsvFacts2 CsvFacts3.
Import ListNotations.
Local Open Scope R_scope.
Local Notation S := Datatypes.S.
Local Notation length := List.length.

(** ** the pose *)
Lemma joint_at_zero : joint_pose (axis_joint JRotZ 1) 0 = fid.
Proof.
  cbn. replace (1 * 0 + 0) with 0 by ring. unfold RotZ. rewrite cos_0, sin_0. unfold fid, mid.
  f_equal. f_equal; ring.
Qed.
Lemma mul_id f : fmul fid f = f.
Proof.
  destruct f as [[a b c d e g h i j] [x y z]]. unfold fmul, fid, mm, mv, vadd, mid, vzero; cbn.
  f_equal; f_equal; ring.
Qed.
Lemma inv_id : finv fid = fid.
Proof. unfold finv, fid, mT, mid, mv, vneg, vzero; cbn. f_equal; f_equal; ring. Qed.

Lemma dh_pose_eq l :
  dh_frame (dh_a l) (deg_to_rad (dh_alpha l)) (dh_d l) (deg_to_rad (dh_offset l)) = dh_pose l.
Proof.
  unfold dh_pose, deg_to_rad, dh_frame. unfold Rdiv. rewrite !Rmult_assoc.
  set (s := dh_offset l * (PI * / 180)). set (t := dh_alpha l * (PI * / 180)).
  unfold fmul, ftrans, RotZ, RotX, mm, mv, vadd, mid, vzero; cbn. f_equal; f_equal; ring.
Qed.

Lemma segment_at_zero l : segment_pose (csv_segment l) 0 = dh_pose l.
Proof.
  unfold segment_pose, csv_segment, mk_segment; cbn [s_joint s_tip].
  rewrite joint_at_zero, inv_id, !mul_id. apply dh_pose_eq.
Qed.

Lemma pose_product ls : csv_pose ls = Some (product ls).
Proof.
  unfold csv_pose, chain_fwd_kin, product.
  generalize fid. induction ls as [|l ls IH]; intros f; [reflexivity|].
  change (chain_fk (fmul f (segment_pose (csv_segment l) 0)) (map csv_segment ls) (repeat 0 (nr_of_joints (map csv_segment ls)))
          = Some (fold_left (fun f l => fmul f (dh_pose l)) ls (fmul f (dh_pose l)))).
  rewrite segment_at_zero. apply IH.
Qed.

(** ** the numbers *)
Local Open Scope Z_scope.
Lemma digit_code n : 0 <= n <= 9 -> nat_of_ascii (digit n) = (48 + Z.to_nat n)%nat.
Proof. intros H. unfold digit. apply nat_ascii_embedding. lia. Qed.
Lemma digit_is n : 0 <= n <= 9 -> isdig (digit n).
Proof. intros H. unfold isdig. rewrite digit_code by assumption. lia. Qed.
Lemma digit_place m n : 0 <= n <= 9 -> place m (digit n) = 10 * m + n.
Proof. intros H. unfold place. rewrite digit_code by assumption. lia. Qed.

Lemma natural_snoc a c : natural (a ++ [c]) = place (natural a) c.
Proof. unfold natural. now rewrite fold_left_app. Qed.
Lemma natural_app a b : natural (a ++ b) = natural a * 10 ^ Z.of_nat (length b) + natural b.
Proof.
  induction b as [|c b IH] using rev_ind.
  - rewrite app_nil_r. cbn. lia.
  - rewrite app_assoc, !natural_snoc, IH. unfold place. rewrite app_length, Nat2Z.inj_add.
    change (Z.of_nat (length [c])) with 1. rewrite Z.pow_add_r by lia. lia.
Qed.

Lemma digs_snoc a c : digs a -> isdig c -> digs (a ++ [c]).
Proof. intros A C. apply Forall_app. split; [exact A | constructor; [exact C | constructor]]. Qed.

Lemma last_digits_facts k : forall n, 0 <= n ->
  digs (last_digits k n) /\ length (last_digits k n) = k /\ natural (last_digits k n) = n mod 10 ^ Z.of_nat k.
Proof.
  induction k as [|k IH]; intros n H.
  - cbn. repeat split; [constructor|]. now rewrite Z.mod_1_r.
  - destruct (IH (n / 10)) as (A & B & C); [apply Z.div_pos; lia|].
    assert (0 <= n mod 10 <= 9) as D by (pose proof (Z.mod_pos_bound n 10); lia).
    cbn [last_digits]. repeat split.
    + apply digs_snoc; [exact A | now apply digit_is].
    + rewrite app_length. cbn. lia.
    + rewrite natural_snoc, digit_place, C by assumption.
      rewrite Nat2Z.inj_succ, Z.pow_succ_r by lia.
      rewrite Z.rem_mul_r; lia.
Qed.

Lemma digits_step f n : digits_fuel (S f) n = if n <? 10 then [digit n] else digits_fuel f (n / 10) ++ [digit (n mod 10)].
Proof. reflexivity. Qed.
Lemma digits_fuel_facts f : forall n, 0 <= n < 2 ^ Z.of_nat (S f) ->
  digs (digits_fuel (S f) n) /\ digits_fuel (S f) n <> [] /\ natural (digits_fuel (S f) n) = n.
Proof.
  induction f as [|f IH]; intros n H.
  - change (2 ^ Z.of_nat 1) with 2 in H. cbn [digits_fuel]. replace (n <? 10) with true by (symmetry; apply Z.ltb_lt; lia).
    split; [constructor; [apply digit_is; lia | constructor] | split; [discriminate|]].
    change [digit n] with ([] ++ [digit n]). rewrite natural_snoc, digit_place by lia. cbn. lia.
  - rewrite (digits_step (S f) n). destruct (Z.ltb_spec n 10) as [L|L].
    + split; [constructor; [apply digit_is; lia | constructor] | split; [discriminate|]].
      change [digit n] with ([] ++ [digit n]). rewrite natural_snoc, digit_place by lia. cbn. lia.
    + assert (0 <= n mod 10 <= 9) as D by (pose proof (Z.mod_pos_bound n 10); lia).
      destruct (IH (n / 10)) as (A & B & C).
      { split; [apply Z.div_pos; lia|]. apply Z.div_lt_upper_bound; [lia|].
        rewrite (Nat2Z.inj_succ (S f)), Z.pow_succ_r in H by lia. lia. }
      repeat split.
      * apply digs_snoc; [exact A | now apply digit_is].
      * intros E. apply app_eq_nil in E. destruct E. discriminate.
      * rewrite natural_snoc, digit_place, C by assumption. pose proof (Z.div_mod n 10). lia.
Qed.

Lemma digits_facts n : 0 <= n -> digs (digits n) /\ digits n <> [] /\ natural (digits n) = n.
Proof.
  intros H. unfold digits. apply digits_fuel_facts. split; [exact H|].
  rewrite Nat2Z.inj_succ, Z2Nat.id by apply Z.log2_nonneg.
  destruct (Z.eq_dec n 0) as [->|N]; [reflexivity|].
  now apply Z.log2_spec; lia.
Qed.

Lemma rstrip_tail c s : exists k, s = rstrip c s ++ repeat c k.
Proof.
  induction s as [|a s [k IH]]; [now exists 0%nat|]. cbn [rstrip].
  destruct (rstrip c s) as [|b t] eqn:E.
  - destruct (Ascii.eqb a c) eqn:A.
    + apply Ascii.eqb_eq in A. subst a. exists (S k). cbn in IH |- *. now rewrite <- IH.
    + exists k. cbn in IH |- *. now rewrite <- IH.
  - exists k. cbn in IH |- *. now rewrite <- IH.
Qed.
Lemma rstrip_last c s d : rstrip c s <> [] -> last (rstrip c s) d <> c.
Proof.
  induction s as [|a s IH]; intros N; [now elim N|]. cbn [rstrip] in *.
  destruct (rstrip c s) as [|b t] eqn:E.
  - destruct (Ascii.eqb a c) eqn:A; [now elim N|]. cbn. now apply Ascii.eqb_neq.
  - change (last (a :: b :: t) d) with (last (b :: t) d). apply IH. discriminate.
Qed.
Lemma rstrip_app c a b : b <> [] -> last b c <> c -> rstrip c (a ++ b) = a ++ b.
Proof.
  intros N L. assert (rstrip c b = b) as B.
  { clear a. induction b as [|x b IH]; [now elim N|]. cbn [rstrip].
    destruct b as [|y b].
    - cbn in L |- *. destruct (Ascii.eqb x c) eqn:E; [|reflexivity]. apply Ascii.eqb_eq in E. contradiction.
    - rewrite IH; [reflexivity | discriminate | exact L]. }
  induction a as [|x a IH]; [exact B|]. cbn [app rstrip]. rewrite IH.
  destruct (a ++ b) eqn:E; [|reflexivity]. apply app_eq_nil in E. destruct E. contradiction.
Qed.
Lemma rstrip_app2 c a b : rstrip c b <> [] -> rstrip c (a ++ b) = a ++ rstrip c b.
Proof.
  intros N. induction a as [|x a IH]; [reflexivity|]. cbn [app rstrip]. rewrite IH.
  destruct (a ++ rstrip c b) eqn:E; [|reflexivity]. apply app_eq_nil in E. destruct E. contradiction.
Qed.
Lemma rstrip_snoc c a : rstrip c (a ++ [c]) = rstrip c a.
Proof.
  induction a as [|x a IH]; [cbn; now rewrite Ascii.eqb_refl|]. cbn [app rstrip]. now rewrite IH.
Qed.
Lemma natural_zeros k : natural (repeat "0"%char k) = 0.
Proof.
  induction k as [|k IH]; [reflexivity|]. cbn [repeat]. change ("0"%char :: repeat "0"%char k) with (["0"%char] ++ repeat "0"%char k).
  rewrite natural_app, IH. reflexivity.
Qed.
Lemma digs_last a d : digs a -> a <> [] -> isdig (last a d).
Proof.
  intros D N. induction a as [|x a IH]; [now elim N|]. inversion D; subst.
  destruct a; [assumption|]. apply IH; [assumption | discriminate].
Qed.
Lemma dot_not : ~ isdig ".".
Proof. unfold isdig. cbn. lia. Qed.
Lemma minus_not : ~ isdig "-".
Proof. unfold isdig. cbn. lia. Qed.

(** the value of the decimals, with and without the zeros at their end *)
Lemma decimals_value i p k : (IZR (natural i) + IZR (natural p) / 10 ^ length p)%R
  = (IZR (natural i * 10 ^ Z.of_nat (length p + k) + natural (p ++ repeat "0"%char k)) / 10 ^ (length p + k))%R.
Proof.
  rewrite natural_app, natural_zeros, repeat_length.
  assert (forall a, IZR (10 ^ Z.of_nat a) = (10 ^ a)%R) as P by (intros a; now rewrite <- pow_IZR).
  rewrite plus_IZR, mult_IZR, plus_IZR, mult_IZR, !P, pow_add.
  assert (forall a, (10 ^ a)%R <> 0%R) as Q by (intros a; apply pow_nonzero; lra).
  field. split; apply Q.
Qed.

Lemma shown_number fmt x : (0 <= snd (fmt x)) ->
  reads (shown fmt x) ((if fst (fmt x) then - IZR (snd (fmt x)) else IZR (snd (fmt x))) / 10 ^ 15)%R
  /\ tidy (shown fmt x).
Proof.
  destruct (fmt x) as [b n] eqn:Ef. cbn [fst snd]. intros H. unfold shown. rewrite Ef. unfold fixed15. cbn [fst snd].
  set (i := n / 10 ^ 15). set (d := n mod 10 ^ 15).
  assert (n = i * 10 ^ 15 + d) as En by (unfold i, d; pose proof (Z.div_mod n (10 ^ 15)); lia).
  destruct (digits_facts i) as (Di & Ni & Vi); [unfold i; apply Z.div_pos; lia|].
  destruct (last_digits_facts 15 d) as (Dd & Ld & Vd); [unfold d; apply Z.mod_pos_bound; lia|].
  rewrite Z.mod_small in Vd by (unfold d; apply Z.mod_pos_bound; lia).
  set (I := digits i) in *. set (P := last_digits 15 d) in *. clearbody I P.
  destruct (rstrip_tail "0" P) as [k EP]. set (P' := rstrip "0" P) in *.
  assert (length P' + k = 15)%nat as LP by (rewrite <- Ld, EP, app_length, repeat_length; reflexivity).
  assert (forall sg : text, rstrip "0" (sg ++ I ++ tx "." ++ P) = sg ++ I ++ "."%char :: P') as R0.
  { intros sg. change (tx "." ++ P) with ("."%char :: P).
    rewrite app_assoc, (rstrip_app2 _ (sg ++ I)); cbn [rstrip]; fold P'.
    - rewrite <- app_assoc. now destruct P'.
    - destruct P'; discriminate. }
  rewrite R0.
  assert (IZR n / 10 ^ 15 = IZR (natural I) + IZR (natural P') / 10 ^ length P')%R as V.
  { rewrite (decimals_value I P' k), <- EP, Vi, Vd, LP. now rewrite En at 1. }
  assert (digs P') as DP by (rewrite EP in Dd; apply Forall_app in Dd; apply Dd).
  destruct P' as [|p0 P0] eqn:EP'.
  - assert (forall sg : text, rstrip "." (sg ++ I ++ ["."%char]) = sg ++ I) as R1.
    { intros sg. rewrite app_assoc, rstrip_snoc. apply rstrip_app; [exact Ni|].
      intros C. apply dot_not. rewrite <- C. now apply digs_last. }
    rewrite R1.
    assert (IZR n / 10 ^ 15 = IZR (natural I))%R as V1.
    { rewrite V. change (natural []) with 0. change (length (@nil ascii)) with 0%nat. cbn [pow]. field. }
    assert (forall t, digs t -> ~ In "."%char t) as ND by (intros t; apply digs_no, dot_not).
    destruct b.
    + change (tx "-" ++ I) with ("-"%char :: I). destruct (list_eq_dec ascii_dec ("-"%char :: I) (tx "-0")) as [Z|Z].
      * injection Z as Z. split.
        -- replace (- IZR n / 10 ^ 15)%R with (IZR (natural (tx "0"))).
           ++ apply reads_plus, whole. split; [constructor; [cbn; lia | constructor] | discriminate].
           ++ replace (- IZR n / 10 ^ 15)%R with (- (IZR n / 10 ^ 15))%R by (unfold Rdiv; ring).
              rewrite V1, Z. change (natural (tx "0")) with 0. change (natural ["0"%char]) with 0. ring.
        -- split; [discriminate|]. intros [C|[]]. discriminate.
      * split.
        -- replace (- IZR n / 10 ^ 15)%R with (- (IZR (natural I)))%R by (rewrite <- V1; unfold Rdiv; ring).
           apply reads_minus, whole. now split.
        -- split; [exact Z|]. intros [C|C]; [discriminate|]. now elim (ND I Di).
    + cbn [app]. destruct (list_eq_dec ascii_dec I (tx "-0")) as [Z|Z].
      * exfalso. rewrite Z in Di. inversion Di. now apply minus_not.
      * split; [rewrite V1; apply reads_plus, whole; now split|]. split; [exact Z|].
        intros C. now elim (ND I Di).
  - assert (P' <> []) as NP by (rewrite EP'; discriminate). rewrite <- EP' in *.
    assert (numeral P') as NumP by (split; [exact DP | exact NP]).
    assert (numeral I) as NumI by (split; assumption).
    assert (forall sg : text, rstrip "." (sg ++ I ++ "."%char :: P') = sg ++ I ++ "."%char :: P') as R1.
    { intros sg. rewrite app_assoc. apply rstrip_app; [discriminate|].
      intros C. apply dot_not. rewrite <- C. rewrite EP'. change (last ("."%char :: p0 :: P0) "."%char) with (last (p0 :: P0) "."%char).
      apply digs_last; [|discriminate]. now rewrite <- EP'. }
    rewrite R1.
    assert (forall sg : text, last (sg ++ I ++ "."%char :: P') "."%char = last P' "."%char) as La.
    { intros sg. rewrite app_assoc. generalize (sg ++ I). intros a. induction a as [|y a IH].
      - cbn [app]. rewrite EP'. reflexivity.
      - cbn [app]. rewrite <- IH. destruct (a ++ "."%char :: P') eqn:E; [|reflexivity].
        apply app_eq_nil in E. destruct E. discriminate. }
    assert (forall sg : text, last (sg ++ I ++ "."%char :: P') "."%char <> "."%char /\ last (sg ++ I ++ "."%char :: P') "."%char <> "0"%char) as T.
    { intros sg. rewrite La. split.
      - intros C. apply dot_not. rewrite <- C. now apply digs_last.
      - unfold P' in EP' |- *. apply rstrip_last. fold P'. exact NP. }
    assert (forall sg : text, sg ++ I ++ "."%char :: P' <> tx "-0") as NZ.
    { intros sg C. assert (In "."%char (tx "-0")) as J by (rewrite <- C; apply in_or_app; right; apply in_or_app; right; now left).
      cbn in J. destruct J as [J|[J|[]]]; discriminate. }
    destruct (list_eq_dec ascii_dec ((if b then tx "-" else []) ++ I ++ "."%char :: P') (tx "-0")) as [C|_]; [now elim (NZ _ C)|].
    split.
    + destruct b.
      * replace (- IZR n / 10 ^ 15)%R with (- (IZR (natural I) + IZR (natural P') / 10 ^ length P'))%R
          by (rewrite <- V; unfold Rdiv; ring).
        cbn [app tx list_ascii_of_string]. apply reads_minus. now apply decimals.
      * rewrite V. cbn [app]. apply reads_plus. now apply decimals.
    + split; [apply NZ | intros _; apply T].
Qed.

Lemma shown_close fmt x : rounds15 fmt ->
  exists y, reads (shown fmt x) y /\ (Rabs (y - x) <= / 2 / 10 ^ 15)%R.
Proof.
  intros R. destruct (R x) as [N C].
  eexists. split; [apply shown_number; exact N|].
  set (m := (if fst (fmt x) then - IZR (snd (fmt x)) else IZR (snd (fmt x)))%R) in *.
  replace (m / 10 ^ 15 - x)%R with ((m - x * 10 ^ 15) * / 10 ^ 15)%R by field.
  rewrite Rabs_mult. rewrite (Rabs_right (/ 10 ^ 15)).
  - unfold Rdiv in *. apply Rmult_le_compat_r; [left; apply Rinv_0_lt_compat, pow_lt; lra | lra].
  - apply Rle_ge. left. apply Rinv_0_lt_compat, pow_lt. lra.
Qed.

Lemma whole_shown c x : isdig c -> natural [c] = x -> exists y, reads [c] y /\ (Rabs (y - IZR x) <= / 2 / 10 ^ 15)%R.
Proof.
  intros D E. exists (IZR (natural [c])). split; [apply reads_plus, whole; split; [constructor; [exact D | constructor] | discriminate]|].
  rewrite E. replace (IZR x - IZR x)%R with 0%R by ring. rewrite Rabs_R0.
  unfold Rdiv. apply Rmult_le_pos; [lra|]. left. apply Rinv_0_lt_compat, pow_lt. lra.
Qed.

Lemma printed_shows fmt h : rounds15 fmt -> shows (printed fmt h) h.
Proof.
  intros R. unfold shows, printed. eexists (_ :: _ :: _ :: _ :: _ :: _ :: _ :: _ :: _ :: _ :: _ :: _ :: _ :: _ :: _ :: _ :: []).
  split; [reflexivity|]. unfold entries.
  repeat (apply Forall2_cons; [first [now apply shown_close | apply whole_shown; [unfold isdig; cbn; lia | reflexivity]]|]).
  constructor.
Qed.

(** ** the whole script *)
Lemma script metres ev order fmt letter table file rows links :
  rounds15 fmt -> good_lengths metres letter table file ->
  (forall d, Permutation (order d) d) ->
  (forall e, order (named letter (entries_of table file)) = named letter e -> longer_first (map fst e)) ->
  Forall (good_row letter (map fst file)) rows ->
  Forall2 (row_means ev table) rows links ->
  exists words, kdl_from_csv metres ev order fmt (lengths_file letter file) (map (dh_row letter) rows) = Some words
    /\ shows words (product links).
Proof.
  intros R G P L A M. exists (printed fmt (product links)). split; [|now apply printed_shows].
  unfold kdl_from_csv. rewrite (read_lengths_named metres letter table file G).
  rewrite (table_meaning metres ev order letter table file G P L rows links A M).
  now rewrite pose_product.
Qed.

Lemma prefix_free_longer l : NoDup l -> none_begins_another l -> longer_first l.
Proof.
  intros N F. induction N as [|n l I N IH]; [exact I|]. cbn. split.
  - apply Forall_forall. intros m J r E. apply (F n r); [now left | right; now rewrite <- E].
  - apply IH. intros m r J K. apply (F m r); now right.
Qed.

Lemma script_any_order metres ev order fmt letter table file rows links :
  rounds15 fmt -> good_lengths metres letter table file ->
  (forall d, Permutation (order d) d) ->
  none_begins_another (map fst file) ->
  Forall (good_row letter (map fst file)) rows ->
  Forall2 (row_means ev table) rows links ->
  exists words, kdl_from_csv metres ev order fmt (lengths_file letter file) (map (dh_row letter) rows) = Some words
    /\ shows words (product links).
Proof.
  intros R G P F A M. apply (script metres ev order fmt letter table); auto.
  intros e E. assert (Permutation e (entries_of table file)) as Pe.
  { assert (Q := P (named letter (entries_of table file))). rewrite E in Q.
    apply named_perm in Q. destruct Q as (e' & E' & Q).
    assert (e = e') as ->; [|exact Q].
    clear - E'. revert e' E'. induction e as [|[a b] e IH]; intros [|[a' b'] e'] E'; try discriminate; [reflexivity|].
    cbn in E'. injection E' as -> -> E'. f_equal. now apply IH. }
  assert (Permutation (map fst e) (map fst file)) as Pf.
  { apply (Permutation_map fst) in Pe. unfold entries_of in Pe. now rewrite map_map in Pe. }
  destruct G as (_ & _ & N & _). apply prefix_free_longer.
  - eapply Permutation_NoDup; [apply Permutation_sym; exact Pf | exact N].
  - intros n r I J. apply (F n r); now apply (Permutation_in _ Pf).
Qed.

Lemma named_inj l a : forall b, named l a = named l b -> a = b.
Proof.
  induction a as [|[x y] a IH]; intros [|[x' y'] b] E; try discriminate; [reflexivity|].
  cbn in E. injection E as -> -> E. f_equal. now apply IH.
Qed.

Lemma script_in_order metres ev fmt letter table file rows links :
  rounds15 fmt -> good_lengths metres letter table file ->
  longer_first (map fst file) ->
  Forall (good_row letter (map fst file)) rows ->
  Forall2 (row_means ev table) rows links ->
  exists words, kdl_from_csv metres ev (fun d => d) fmt (lengths_file letter file) (map (dh_row letter) rows) = Some words
    /\ shows words (product links).
Proof.
  intros R G F A M. apply (script metres ev (fun d => d) fmt letter table); auto.
  intros e E. apply named_inj in E. subst e. unfold entries_of. now rewrite map_map.
Qed.
