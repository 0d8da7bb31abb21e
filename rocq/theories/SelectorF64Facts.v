From Coq Require Import List ZArith Reals Lia Lra Bool Machin Ratan.
From Flocq Require Import Core IEEE754.BinarySingleNaN.
From Verif Require Import F64 F64Facts F64More RoundedFacts SelectorF64 SelectorF64Spec.
Import ListNotations.
Open Scope R_scope.

Lemma pi_low : 884279719003555 / 562949953421312 <= PI / 2.
Proof.
  pose proof (PI_2_3_7_ineq 8) as (L & _).
  assert (E : 884279719003555 / 562949953421312 / 2 <= sum_f_R0 (tg_alt PI_2_3_7_tg) (S (2 * 8))).
  { change (S (2 * 8)) with 17%nat. unfold tg_alt, PI_2_3_7_tg, Ratan_seq. cbn [sum_f_R0]. rewrite !INR_IZR_INZ.
    cbn [Nat.mul Nat.add Z.of_nat Pos.of_succ_nat Pos.succ pow]. lra. }
  lra.
Qed.
Lemma half_pi_val : finite half_pi = true /\ val half_pi <= PI / 2.
Proof.
  split; [reflexivity|]. apply Rle_trans with (2 := pi_low). assert (E : B2SF half_pi = SpecFloat.S754_finite false 7074237752028440 (-52)) by (vm_compute; reflexivity).
  unfold val. rewrite <- SF2R_B2SF, E. unfold SF2R, F2R; cbn. lra.
Qed.
Lemma eps_val : finite eps = true /\ / 1000001 <= val eps <= / 999999.
Proof.
  split; [reflexivity|]. assert (E : B2SF eps = SpecFloat.S754_finite false 4722366482869645 (-72)) by (vm_compute; reflexivity).
  unfold val. rewrite <- SF2R_B2SF, E. unfold SF2R, F2R; cbn. lra.
Qed.

(** ** the limits *)
Lemma check_ok : forall v l h, limit l -> limit h -> checkJointInLimits v l h = true -> finite v = true /\ val l - 11 / 10000000 <= val v <= val h + 11 / 10000000.
Proof.
  intros v l h (Fl & Bl) (Fh & Bh) C. unfold checkJointInLimits in C. apply andb_true_iff in C as [C1 C2]. destruct eps_val as (FE & VE).
  destruct (fsub_ok _ _ Fl FE) as (F1 & V1). { big. } destruct (fadd_ok _ _ Fh FE) as (F2 & V2). { big. }
  assert (Fv : finite v = true) by exact (between_finite v _ _ F1 F2 C1 C2). split; [exact Fv|].
  apply fleb_val in C1; try assumption. apply fleb_val in C2; try assumption. rewrite V1 in C1. rewrite V2 in C2. pose proof tiny_small.
  assert (R1 : Rabs (rnd (val l - val eps) - (val l - val eps)) <= u * 1000001 + tiny). { apply rnd_near; [apply Rabs_le_inv in Bl; apply Rabs_le; lra|lra]. }
  assert (R2 : Rabs (rnd (val h + val eps) - (val h + val eps)) <= u * 1000001 + tiny). { apply rnd_near; [apply Rabs_le_inv in Bh; apply Rabs_le; lra|lra]. }
  apply Rabs_le_inv in R1. apply Rabs_le_inv in R2. unfold u in *. lra.
Qed.
Lemma check_yes : forall v l h, limit l -> limit h -> finite v = true -> val l <= val v <= val h -> checkJointInLimits v l h = true.
Proof.
  intros v l h (Fl & Bl) (Fh & Bh) Fv (B1 & B2). unfold checkJointInLimits. destruct eps_val as (FE & VE).
  destruct (fsub_ok _ _ Fl FE) as (F1 & V1). { big. } destruct (fadd_ok _ _ Fh FE) as (F2 & V2). { big. }
  apply andb_true_iff. split; apply fleb_val; try assumption.
  - rewrite V1. apply Rle_trans with (2 := B1). rewrite <- (rnd_val l) at 2. apply rnd_le. lra.
  - rewrite V2. apply Rle_trans with (1 := B2). rewrite <- (rnd_val h) at 1. apply rnd_le. lra.
Qed.
Lemma validate_inside : forall q lo hi, Forall limit lo -> Forall limit hi -> length q = length lo -> validate q lo hi = Some true -> inside lo hi q.
Proof.
  intros q lo hi Dl Dh L V. split; [exact L|]. clear L. revert lo hi Dl Dh V. induction q as [|a q IH]; intros lo hi Dl Dh V i v l h Hv Hl Hh; [destruct i; discriminate|].
  destruct lo as [|b lo]; [destruct i; discriminate|]. destruct hi as [|c hi]; [destruct i; discriminate|]. cbn [validate] in V. inversion Dl; inversion Dh; subst.
  destruct (checkJointInLimits a b c) eqn:C; [|discriminate]. destruct i as [|i]; cbn [nth_error] in Hv, Hl, Hh.
  - injection Hv as <-. injection Hl as <-. injection Hh as <-. now apply check_ok.
  - now apply (IH lo hi) with (i := i).
Qed.
Lemma validate_some : forall q lo hi, length q = length lo -> length q = length hi -> exists b, validate q lo hi = Some b.
Proof.
  induction q as [|a q IH]; intros [|b lo] [|c hi] L1 L2; try discriminate; [now exists true|]. cbn [validate]. destruct (checkJointInLimits a b c); [|now exists false]. apply IH; cbn in *; lia.
Qed.
Lemma validate_yes : forall q lo hi, Forall limit lo -> Forall limit hi -> length q = length lo -> length q = length hi ->
  (forall i v l h, nth_error q i = Some v -> nth_error lo i = Some l -> nth_error hi i = Some h -> finite v = true /\ val l <= val v <= val h) -> validate q lo hi = Some true.
Proof.
  induction q as [|a q IH]; intros [|b lo] [|c hi] Dl Dh L1 L2 H; try discriminate; [reflexivity|]. cbn [validate]. inversion Dl; inversion Dh; subst.
  destruct (H 0%nat a b c eq_refl eq_refl eq_refl) as (Fv & B). rewrite check_yes by assumption. apply IH; try assumption; cbn in *; try lia. intros i. exact (H (S i)).
Qed.

(** ** the configurations *)
Definition fits (lo hi : list f64) (n : nat) (c : config) : Prop := length (c_q c) = n /\ (c_valid c = true -> validate (c_q c) lo hi = Some true).
Lemma configs_fit : forall lo hi sols cs, (forall q, In q sols -> length q = length lo) -> configs lo hi sols = Some cs -> Forall (fits lo hi (length lo)) cs /\ length cs = length sols.
Proof.
  induction sols as [|q sols IH]; intros cs L H; cbn [configs] in H. { injection H as <-. split; [constructor|reflexivity]. }
  destruct (validate q lo hi) as [v|] eqn:V; [|discriminate]. destruct (configs lo hi sols) as [l|] eqn:C; [|discriminate]. injection H as <-.
  destruct (IH l (fun q' I => L q' (or_intror I)) eq_refl) as (IH1 & IH2). split; [constructor; [|exact IH1]|cbn; lia]. split; cbn [c_q c_valid]; [apply L; now left|intros ->; exact V].
Qed.
Lemma configs_some : forall lo hi sols, length lo = length hi -> (forall q, In q sols -> length q = length lo) -> exists cs, configs lo hi sols = Some cs.
Proof.
  induction sols as [|q sols IH]; intros E L; cbn [configs]; [now eexists|]. destruct (validate_some q lo hi) as (b & ->). { apply L; now left. } { rewrite <- E. apply L; now left. }
  destruct (IH E (fun q' I => L q' (or_intror I))) as (cs & ->). now eexists.
Qed.
Lemma configs_nth : forall lo hi sols cs i c, configs lo hi sols = Some cs -> nth_error cs i = Some c -> exists b, nth_error sols i = Some (c_q c) /\ validate (c_q c) lo hi = Some b /\ c_valid c = b.
Proof.
  induction sols as [|q sols IH]; intros cs i c H N; cbn [configs] in H. { injection H as <-. destruct i; discriminate. }
  destruct (validate q lo hi) as [v|] eqn:V; [|discriminate]. destruct (configs lo hi sols) as [l|] eqn:C; [|discriminate]. injection H as <-.
  destruct i as [|i]; cbn [nth_error] in *; [injection N as <-; now exists v|]. now apply (IH l i c).
Qed.
Lemma configs_of : forall lo hi sols cs i q, configs lo hi sols = Some cs -> nth_error sols i = Some q -> exists c, nth_error cs i = Some c /\ c_q c = q /\ validate q lo hi = Some (c_valid c).
Proof.
  induction sols as [|q0 sols IH]; intros cs i q H N; cbn [configs] in H. { destruct i; discriminate. }
  destruct (validate q0 lo hi) as [v|] eqn:V; [|discriminate]. destruct (configs lo hi sols) as [l|] eqn:C; [|discriminate]. injection H as <-.
  destruct i as [|i]; cbn [nth_error] in *; [injection N as <-; exists (Cfg q0 v); now repeat split|]. now apply (IH l i q).
Qed.

Lemma not_below : forall x, finite x = true -> negb (fltb half_pi (fabs x)) = true -> Rabs (val x) <= PI / 2.
Proof.
  intros x F H. apply negb_true_iff in H. destruct half_pi_val as (FH & VH). apply fltb_false in H; [|exact FH|now rewrite fabs_finite]. rewrite fabs_val in H. lra.
Qed.
Lemma constraints_natural : forall q, length q = 6%nat -> Forall (fun v => finite v = true) q -> applyConstraints q = Some true -> natural q.
Proof.
  intros q L F H. destruct q as [|q0 [|q1 [|q2 [|q3 [|q4 [|q5 [|q6 q]]]]]]]; try discriminate L. cbn [applyConstraints] in H.
  assert (H' : negb (fltb half_pi (fabs q0)) && negb (fltb half_pi (fabs q1)) && negb (fltb half_pi (fabs q2)) && negb (fltb q3 fzero) && negb (fltb half_pi (fabs q4)) && negb (fltb half_pi (fabs q5)) = true) by congruence. clear H.
  repeat match goal with H : _ && _ = true |- _ => apply andb_true_iff in H as [? ?] end.
  repeat match goal with H : Forall _ (_ :: _) |- _ => inversion H; clear H; subst end.
  exists q0, q1, q2, q3, q4, q5. split; [reflexivity|]. repeat split; try (apply not_below; assumption).
  assert (N : fltb q3 fzero = false) by now apply negb_true_iff. apply fltb_false in N; [exact N|assumption|reflexivity].
Qed.
Definition kept (lo hi : list f64) (n : nat) (c : config) : Prop :=
  length (c_q c) = n /\ (c_valid c = true -> validate (c_q c) lo hi = Some true /\ applyConstraints (c_q c) = Some true).
Lemma discard_kept : forall lo hi n cs l, Forall (fits lo hi n) cs -> discard cs = Some l -> Forall (kept lo hi n) l /\ length l = length cs.
Proof.
  induction cs as [|c cs IH]; intros l F H; cbn [discard] in H. { injection H as <-. split; [constructor|reflexivity]. }
  assert (F1 := proj1 (Forall_inv F)). assert (F2 := proj2 (Forall_inv F)). assert (F' := Forall_inv_tail F). destruct (c_valid c) eqn:V.
  - destruct (applyConstraints (c_q c)) as [ok|] eqn:A; [|discriminate]. destruct (discard cs) as [l'|]; [|discriminate]. injection H as <-. destruct (IH l' F' eq_refl) as (I1 & I2). split; [constructor; [|exact I1]|cbn; lia].
    split; cbn [c_q c_valid]; [exact F1|]. cbn. intros ->. auto.
  - destruct (discard cs) as [l'|]; [|discriminate]. injection H as <-. destruct (IH l' F' eq_refl) as (I1 & I2). split; [constructor; [|exact I1]|cbn; lia].
    split; cbn [c_q c_valid]; [exact F1|discriminate].
Qed.
Lemma discard_some : forall lo hi n cs, Forall (fits lo hi n) cs -> (6 <= n)%nat -> exists l, discard cs = Some l.
Proof.
  induction cs as [|c cs IH]; intros F N; cbn [discard]; [now eexists|]. assert (F1 := proj1 (Forall_inv F)). assert (F' := Forall_inv_tail F). destruct (IH F' N) as (l & ->). rewrite <- F1 in N.
  destruct (c_valid c); [|now eexists]. destruct (c_q c) as [|q0 [|q1 [|q2 [|q3 [|q4 [|q5 q]]]]]]; cbn in N; try lia. cbn [applyConstraints]. now eexists.
Qed.

(** ** the set *)
Lemma set_head_in : forall x l y, In y (set_insert x l) -> y = x \/ In y l.
Proof.
  induction l as [|z l IH]; intros y H; cbn [set_insert] in H. { destruct H as [<-|[]]. now left. }
  destruct (pair_ltb x z); [destruct H as [<-|H]; [now left|now right]|]. destruct (pair_ltb z x); [|now right].
  destruct H as [<-|H]; [right; now left|]. destruct (IH y H) as [E|E]; [now left|right; now right].
Qed.
Lemma set_in : forall ps s y, In y (fold_left (fun s p => set_insert p s) ps s) -> In y ps \/ In y s.
Proof.
  induction ps as [|p ps IH]; intros s y H; [now right|]. cbn [fold_left] in H. destruct (IH _ _ H) as [E|E]; [left; now right|]. destruct (set_head_in _ _ _ E) as [->|E']; [left; now left|now right].
Qed.
Lemma set_nonempty : forall x l, set_insert x l <> [].
Proof. intros x [|y l]; cbn; [discriminate|]. destruct (pair_ltb x y); [discriminate|]. destruct (pair_ltb y x); discriminate. Qed.
Lemma sets_nonempty : forall ps s, ps <> [] \/ s <> [] -> fold_left (fun s p => set_insert p s) ps s <> [].
Proof. induction ps as [|p ps IH]; intros s H; [destruct H; [congruence|assumption]|]. cbn [fold_left]. apply IH. right. apply set_nonempty. Qed.

(** the first of the set is the least: [seen] are the pairs inserted so far *)
Definition least (seen s : list (f64 * nat)) : Prop := forall h t, s = h :: t -> forall x, In x seen -> fltb (fst x) (fst h) = false.
Lemma least_insert : forall x s seen, (forall y, In y (x :: s ++ seen) -> isnan (fst y) = false) -> least seen s -> (s = [] -> seen = []) -> least (x :: seen) (set_insert x s).
Proof.
  intros x s seen N L E h t Hs y Hy. assert (Nx : isnan (fst x) = false) by (apply N; now left).
  assert (Ny : isnan (fst y) = false) by (destruct Hy as [<-|Hy]; [exact Nx|apply N; right; apply in_or_app; now right]).
  destruct s as [|z s]; cbn [set_insert] in Hs.
  - injection Hs as <- <-. rewrite (E eq_refl) in Hy. destruct Hy as [<-|[]]. apply key_not_lt; try assumption. lra.
  - assert (Nz : isnan (fst z) = false) by (apply N; right; now left).
    assert (Lz : forall w, In w seen -> fltb (fst w) (fst z) = false) by (intros w Hw; exact (L z s eq_refl w Hw)).
    assert (K : In y seen -> key (fst z) <= key (fst y)) by (intro Hw; apply key_le; try assumption; now apply Lz).
    unfold pair_ltb in Hs. destruct (fltb (fst x) (fst z)) eqn:C1; cbn [orb] in Hs.
    + injection Hs as <- <-. apply key_lt in C1; try assumption. apply key_not_lt; try assumption. destruct Hy as [<-|Hy]; [lra|]. apply K in Hy. lra.
    + apply key_le in C1; try assumption. destruct (fltb (fst z) (fst x)) eqn:C2; cbn [negb andb orb] in Hs.
      * injection Hs as <- <-. apply key_not_lt; try assumption. destruct Hy as [<-|Hy]; [lra|now apply K].
      * apply key_le in C2; try assumption. assert (Q : key (fst y) >= key (fst x) /\ key (fst y) >= key (fst z)) by (destruct Hy as [<-|Hy]; [lra|apply K in Hy; lra]).
        destruct (Nat.ltb (snd x) (snd z)); [injection Hs as <- <-; apply key_not_lt; try assumption; lra|]. destruct (Nat.ltb (snd z) (snd x)); injection Hs as <- <-; apply key_not_lt; try assumption; lra.
Qed.
Lemma least_set : forall ps s seen, (forall y, In y (ps ++ s ++ seen) -> isnan (fst y) = false) -> least seen s -> (s = [] -> seen = []) ->
  least (rev ps ++ seen) (fold_left (fun s p => set_insert p s) ps s).
Proof.
  induction ps as [|p ps IH]; intros s seen N L E; [exact L|]. cbn [fold_left rev]. rewrite <- app_assoc. apply IH.
  - intros y Hy. apply N. apply in_app_or in Hy as [Hy|Hy]; [right; apply in_or_app; now left|]. apply in_app_or in Hy as [Hy|[<-|Hy]].
    + destruct (set_head_in _ _ _ Hy) as [->|Hy']; [now left|right; apply in_or_app; right; apply in_or_app; now left].
    + now left.
    + right. apply in_or_app; right; apply in_or_app; now right.
  - apply least_insert; try assumption. intros y [<-|Hy]; apply N; [now left|right; apply in_or_app; now right].
  - intro C. destruct (set_nonempty p s C).
Qed.

(** ** the displacements *)
Lemma diffs_travel : forall guess q, length guess = length q -> exists ds, getDiffs guess q = Some ds /\
  (forall s, fold_left fadd ds s = fold_left (fun s p => fadd s (fabs (fsub (fst p) (snd p)))) (combine guess q) s) /\
  (Forall (fun v => finite v = true) q -> Forall (fun d => isnan d = true \/ plus d) ds /\ existsb isnan ds = existsb isnan guess).
Proof.
  induction guess as [|g guess IH]; intros [|v q] L; try discriminate. { exists []. repeat split; try reflexivity. constructor. }
  destruct (IH q ltac:(cbn in L; lia)) as (ds & E & T & K). cbn [getDiffs]. rewrite E. cbn [option_map]. eexists. split; [reflexivity|]. split; [intro s; cbn; apply T|].
  intro F. inversion F as [|? ? Fv F']; subst. destruct (K F') as (K1 & K2). split.
  - constructor; [|exact K1]. destruct (isnan g) eqn:N; [left; now rewrite fabs_nan, fsub_nan|right]. assert (M : isnan (fsub g v) = false) by now rewrite fsub_nan. split; [now rewrite fabs_nan|now apply fabs_sign].
  - cbn [existsb]. now rewrite fabs_nan, fsub_nan, K2.
Qed.
Lemma displacement_ok : forall guess q, length guess = length q -> displacement guess q = Some (travel guess q).
Proof. intros guess q L. destruct (diffs_travel guess q L) as (ds & E & T & _). unfold displacement. rewrite E. cbn. now rewrite T. Qed.
Lemma travel_nan : forall guess q, length guess = length q -> Forall (fun v => finite v = true) q -> isnan (travel guess q) = existsb isnan guess.
Proof.
  intros guess q L F. destruct (diffs_travel guess q L) as (ds & E & T & K). destruct (K F) as (K1 & K2). unfold travel. rewrite <- T. destruct (total_nan ds fzero zero_plus K1) as (-> & _). exact K2.
Qed.

Lemma pairs_ok : forall guess cs i, (forall c, In c cs -> length (c_q c) = length guess) -> exists ps, pairs guess cs i = Some ps /\
  forall d j, In (d, j) ps <-> exists k c, j = (i + k)%nat /\ nth_error cs k = Some c /\ c_valid c = true /\ d = travel guess (c_q c).
Proof.
  induction cs as [|c cs IH]; intros i L. { exists []. split; [reflexivity|]. intros d j. split; [intros []|]. intros (k & c & _ & H & _). destruct k; discriminate. }
  destruct (IH (S i) (fun c' I => L c' (or_intror I))) as (ps & E & H). cbn [pairs].
  assert (Q : forall d j, (exists k c0, j = (S i + k)%nat /\ nth_error cs k = Some c0 /\ c_valid c0 = true /\ d = travel guess (c_q c0)) <-> exists k c0, j = (i + S k)%nat /\ nth_error (c :: cs) (S k) = Some c0 /\ c_valid c0 = true /\ d = travel guess (c_q c0)).
  { intros d j. split; intros (k & c0 & A & B); exists k, c0; (split; [lia|exact B]). }
  destruct (c_valid c) eqn:V.
  - rewrite displacement_ok by (symmetry; apply L; now left). rewrite E. eexists. split; [reflexivity|]. intros d j. cbn [In]. rewrite H, Q. split.
    + intros [A|(k & c0 & A)]; [injection A as <- <-; exists 0%nat, c; repeat split; [lia|exact V]|exists (S k), c0; exact A].
    + intros ([|k] & c0 & A & B & C & D); [left; cbn in B; injection B as <-; rewrite D; f_equal; lia|right; exists k, c0; auto].
  - exists ps. split; [exact E|]. intros d j. rewrite H, Q. split.
    + intros (k & c0 & A). exists (S k), c0. exact A.
    + intros ([|k] & c0 & A & B & C & D); [cbn in B; injection B as <-; congruence|exists k, c0; auto].
Qed.

(** the configurations that a selector goes through: all of the same length, the valid ones made of numbers *)
Definition sound (n : nat) (cs : list config) : Prop := forall c, In c cs -> length (c_q c) = n /\ (c_valid c = true -> Forall (fun v => finite v = true) (c_q c)).
Lemma alike : forall (ks : list f64) b, Forall (fun k => isnan k = b) ks -> existsb isnan ks && negb (forallb isnan ks) = false.
Proof.
  intros ks [] H.
  - assert (F : forallb isnan ks = true) by (apply forallb_forall; rewrite Forall_forall in H; exact H). rewrite F. now rewrite andb_false_r.
  - assert (E : existsb isnan ks = false). { apply not_true_iff_false. intro E. apply existsb_exists in E as (k & I & E). rewrite Forall_forall in H. rewrite (H k I) in E. discriminate. } now rewrite E.
Qed.
Lemma find_first : forall cs guess, sound (length guess) cs ->
  ((forall c, In c cs -> c_valid c = false) /\ find_least None cs guess = (Refused, None)) \/
  exists i c, nth_error cs i = Some c /\ c_valid c = true /\ find_least None cs guess = (Found (c_q c), Some i) /\
    forall c', In c' cs -> c_valid c' = true -> fltb (travel guess (c_q c')) (travel guess (c_q c)) = false.
Proof.
  intros cs guess SD. unfold find_least. destruct (pairs_ok guess cs 0 (fun c I => proj1 (SD c I))) as (ps & -> & P).
  assert (K : Forall (fun k => isnan k = existsb isnan guess) (map fst ps)).
  { apply Forall_forall. intros k I. apply in_map_iff in I as ([d j] & <- & I). apply P in I as (k & c & _ & N & V & ->). cbn [fst]. destruct (SD c (nth_error_In _ _ N)) as (L & F). apply travel_nan; [now symmetry|now apply F]. }
  unfold the_set. rewrite (alike _ _ K). destruct (fold_left (fun s p => set_insert p s) ps []) as [|[d i] s] eqn:E.
  - left. split; [|reflexivity]. intros c I. destruct (c_valid c) eqn:V; [exfalso|reflexivity]. apply In_nth_error in I as (k & N). assert (I : In (travel guess (c_q c), k) ps) by (apply P; exists k, c; auto).
    assert (H : ps <> []) by (intros ->; destruct I). destruct (sets_nonempty ps [] (or_introl H) E).
  - right. assert (I : In (d, i) ps). { destruct (set_in ps [] (d, i)) as [I|[]]; [rewrite E; now left|exact I]. } apply P in I as (k & c & -> & N & V & ->). cbn [Nat.add] in *. exists k, c. rewrite N. repeat split; try assumption.
    intros c' I' V'. destruct (existsb isnan guess) eqn:G.
    + assert (Nn : isnan (travel guess (c_q c')) = true). { destruct (SD c' I') as (L & F). rewrite travel_nan; [exact G|now symmetry|now apply F]. } apply isnan_eq in Nn. rewrite Nn. apply fltb_nan_l.
    + apply In_nth_error in I' as (k' & N'). assert (I2 : In (travel guess (c_q c'), k') ps) by (apply P; exists k', c'; auto).
      assert (LS : least (rev ps ++ []) ((travel guess (c_q c), k) :: s)).
      { rewrite <- E. apply least_set; [|intros h t; discriminate|reflexivity]. intros y Hy. cbn [app] in Hy. rewrite app_nil_r in Hy. rewrite Forall_forall in K. apply K. now apply in_map. }
      apply (LS _ _ eq_refl (travel guess (c_q c'), k')). apply in_or_app. left. now apply -> in_rev.
Qed.

(** ** the calls *)
Lemma fits_sound : forall lo hi n cs, Forall limit lo -> Forall limit hi -> length lo = n -> length hi = n -> Forall (fits lo hi n) cs -> sound n cs.
Proof.
  intros lo hi n cs Dl Dh Ll Lh F c I. rewrite Forall_forall in F. destruct (F c I) as (L & V). split; [exact L|]. intro Vc. destruct (validate_inside (c_q c) lo hi Dl Dh ltac:(lia) (V Vc)) as (_ & N).
  apply Forall_forall. intros v Iv. apply In_nth_error in Iv as (i & Hi). assert (Hlt : (i < n)%nat) by (rewrite <- L; apply nth_error_Some; congruence).
  destruct (nth_error lo i) as [l|] eqn:Hl; [|apply nth_error_None in Hl; lia]. destruct (nth_error hi i) as [h|] eqn:Hh; [|apply nth_error_None in Hh; lia]. now destruct (N i v l h Hi Hl Hh).
Qed.
Lemma kept_fits : forall lo hi n cs, Forall (kept lo hi n) cs -> Forall (fits lo hi n) cs.
Proof. intros lo hi n cs F. apply Forall_impl with (2 := F). intros c (A & B). split; [exact A|]. intro V. now destruct (B V). Qed.

Section Calls.
  Variables (gait : bool) (lo hi : list f64).
  Hypothesis Dl : Forall limit lo. Hypothesis Dh : Forall limit hi. Hypothesis Lh : length lo = length hi.
  Hypothesis G6 : gait = true -> length lo = 6%nat.

  (** what a call gives: the configurations after the constraints, and the choice among them *)
  Lemma call_ok : forall k last sols guess, proper (length lo) k (sols, guess) -> (forall i, last = Some i -> (i < k)%nat) ->
    let r := cart_to_jnt gait lo hi last sols guess in
    fst r <> Undefined /\ (forall i, snd r = Some i -> (i < k)%nat) /\
    forall q, fst r = Found q -> In q sols /\ inside lo hi q /\ (gait = true -> natural q).
  Proof.
    intros k last sols guess (K & Q & Lg) B r. subst r. cbn [fst snd] in *. unfold cart_to_jnt. destruct (configs_some lo hi sols Lh Q) as (cs & C). rewrite C.
    destruct (configs_fit _ _ _ _ Q C) as (F & Lc). destruct (existsb c_valid cs); [|cbn [fst snd]; repeat split; try discriminate; exact B].
    assert (Step : forall cs', length cs' = k -> Forall (fits lo hi (length lo)) cs' -> (gait = true -> Forall (kept lo hi (length lo)) cs') -> (forall c, In c cs' -> In (c_q c) sols) ->
      fst (find_least last cs' guess) <> Undefined /\ (forall i, snd (find_least last cs' guess) = Some i -> (i < k)%nat) /\
      forall q, fst (find_least last cs' guess) = Found q -> In q sols /\ inside lo hi q /\ (gait = true -> natural q)).
    { intros cs' Lk Fs Ks Is. assert (SD : sound (length lo) cs') by (apply (fits_sound lo hi); auto).
      assert (Fin : forall c, In c cs' -> c_valid c = true -> In (c_q c) sols /\ inside lo hi (c_q c) /\ (gait = true -> natural (c_q c))).
      { intros c I V. split; [now apply Is|]. destruct (SD c I) as (L & N). rewrite Forall_forall in Fs. destruct (Fs c I) as (_ & W). split; [apply validate_inside; auto|].
        intro G. specialize (Ks G). rewrite Forall_forall in Ks. destruct (Ks c I) as (_ & W'). destruct (W' V) as (_ & A). apply constraints_natural; [rewrite L; now apply G6|now apply N|exact A]. }
      destruct last as [i|].
      - cbn [find_least]. destruct (nth_error cs' i) as [c|] eqn:N; [|apply nth_error_None in N; specialize (B i eq_refl); lia]. cbn [fst snd]. destruct (c_valid c) eqn:V.
        + split; [discriminate|]. split; [exact B|]. intros q H. injection H as <-. apply Fin; [now apply nth_error_In in N|exact V].
        + repeat split; try discriminate; exact B.
      - rewrite <- Lg in SD. destruct (find_first cs' guess SD) as [(_ & E)|(i & c & N & V & E & _)]; rewrite E; cbn [fst snd].
        + repeat split; discriminate.
        + split; [discriminate|]. split; [|intros q H; injection H as <-; apply Fin; [now apply nth_error_In in N|exact V]]. intros j H. injection H as <-. rewrite <- Lk. apply nth_error_Some. congruence. }
    assert (Is : forall c, In c cs -> In (c_q c) sols). { intros c I. apply In_nth_error in I as (i & N). destruct (configs_nth _ _ _ _ _ _ C N) as (b & M & _). now apply nth_error_In in M. }
    unfold find_optimal. destruct gait.
    - destruct (Nat.eqb (length guess) 6); cbn [negb]; [|cbn [fst snd]; repeat split; try discriminate; exact B].
      specialize (G6 eq_refl). destruct (discard_some lo hi (length lo) cs F ltac:(lia)) as (l & D). rewrite D. destruct (discard_kept _ _ _ _ _ F D) as (Kl & Ll).
      apply Step; [lia|now apply kept_fits|auto|]. intros c I.
      assert (W : forall cs l, discard cs = Some l -> forall c, In c l -> exists c', In c' cs /\ c_q c' = c_q c).
      { clear. induction cs as [|a cs IH]; intros l H c I; cbn [discard] in H; [injection H as <-; destruct I|]. destruct (if c_valid a then _ else _); [|discriminate]. destruct (discard cs) as [l'|]; [|discriminate]. injection H as <-.
        destruct I as [<-|I]; [exists a; split; [now left|reflexivity]|]. destruct (IH l' eq_refl c I) as (c' & A & E). exists c'. split; [now right|exact E]. }
      destruct (W cs l D c I) as (c' & I' & <-). now apply Is.
    - apply Step; auto; [lia|discriminate].
  Qed.

  Lemma serve_ok : forall k calls last, Forall (proper (length lo) k) calls -> (forall i, last = Some i -> (i < k)%nat) ->
    ~ In Undefined (serve gait lo hi last calls) /\ forall q, In (Found q) (serve gait lo hi last calls) -> inside lo hi q /\ (gait = true -> natural q).
  Proof.
    induction calls as [|[sols guess] calls IH]; intros last F B; [split; [intros []|intros q []]|]. inversion F as [|? ? F1 F2]; subst. destruct (call_ok k last sols guess F1 B) as (A1 & A2 & A3). cbn [serve]. cbv zeta.
    destruct (IH _ F2 A2) as (I1 & I2). split.
    - intros [E|I]; [now apply A1|now apply I1].
    - intros q [E|I]; [|now apply I2]. now destruct (A3 q E).
  Qed.
End Calls.

(** ** the first call *)
Lemma first_call : forall lo hi sols guess, Forall limit lo -> Forall limit hi -> length lo = length hi -> (forall q, In q sols -> length q = length lo) -> length guess = length lo ->
  (exists q', In q' sols /\ strictly_inside lo hi q') ->
  exists q last, cart_to_jnt false lo hi None sols guess = (Found q, last) /\ In q sols /\ inside lo hi q /\
    forall q', In q' sols -> strictly_inside lo hi q' ->
      fltb (travel guess q') (travel guess q) = false.
Proof.
  intros lo hi sols guess Dl Dh Lh Q Lg (q0 & I0 & H0). unfold cart_to_jnt. destruct (configs_some lo hi sols Lh Q) as (cs & C). rewrite C. destruct (configs_fit _ _ _ _ Q C) as (F & Lc).
  assert (Y : forall q', In q' sols -> strictly_inside lo hi q' -> exists c, In c cs /\ c_q c = q' /\ c_valid c = true).
  { intros q' I' H'. apply In_nth_error in I' as (i & N). destruct (configs_of _ _ _ _ _ _ C N) as (c & Nc & E & V). exists c. split; [now apply nth_error_In in Nc|]. split; [exact E|].
    assert (L' : length q' = length lo) by (apply Q; now apply nth_error_In in N). rewrite validate_yes in V; try assumption; try lia. congruence. }
  destruct (Y q0 I0 H0) as (c0 & Ic & _ & Vc). assert (EX : existsb c_valid cs = true) by (apply existsb_exists; now exists c0). rewrite EX. unfold find_optimal.
  assert (SD : sound (length guess) cs) by (rewrite Lg; apply (fits_sound lo hi); auto).
  destruct (find_first cs guess SD) as [(A & _)|(i & c & N & V & E & M)]; [rewrite (A c0 Ic) in Vc; discriminate|].
  exists (c_q c), (Some i). split; [exact E|]. destruct (configs_nth _ _ _ _ _ _ C N) as (b & Ns & W & Vb). split; [now apply nth_error_In in Ns|]. split.
  - apply validate_inside; try assumption; [apply Q; now apply nth_error_In in Ns|]. rewrite W, <- Vb, V. reflexivity.
  - intros q' I' H'. destruct (Y q' I' H') as (c' & I2 & <- & V'). now apply M.
Qed.

Lemma served : forall gait lo hi k calls, Forall limit lo -> Forall limit hi -> length lo = length hi -> (gait = true -> length lo = 6%nat) -> Forall (proper (length lo) k) calls ->
  ~ In Undefined (serve gait lo hi None calls) /\ forall q, In (Found q) (serve gait lo hi None calls) -> inside lo hi q /\ (gait = true -> natural q).
Proof. intros gait lo hi k calls Dl Dh L G F. apply (serve_ok gait lo hi Dl Dh L G k calls None F). discriminate. Qed.

(** ** the displacement computed with doubles is near the real one *)
Lemma travel_near : forall guess q s a e k, length guess = length q -> Forall moderate guess -> Forall (fun v => finite v = true /\ Rabs (val v) <= 101) q ->
  finite s = true -> 0 <= e -> Rabs (val s - a) <= e -> e <= INR k * / 2000000000000 -> (k + length guess <= 20)%nat -> 0 <= a <= INR k * 201 ->
  let t := fold_left (fun s p => fadd s (fabs (fsub (fst p) (snd p)))) (combine guess q) s in
  finite t = true /\ Rabs (val t - (a + displacement_of guess q)) <= / 100000000000.
Proof.
  induction guess as [|g guess IH]; intros [|v q] s a e k L G Q Fs E0 E Ek K A; try discriminate; cbn [combine fold_left displacement_of].
  - cbn. split; [exact Fs|]. assert (INR k <= 20) by (replace 20 with (INR 20) by (cbn; lra); apply le_INR; cbn in K; lia). apply Rabs_le_inv in E. apply Rabs_le. lra.
  - assert (Gv := Forall_inv G). assert (Qv := Forall_inv Q). destruct Gv as (Fg & Bg). destruct Qv as (Fv & Bv). cbn [fst snd]. pose proof tiny_small as TS.
    assert (K20 : INR k <= 19) by (replace 19 with (INR 19) by (cbn; lra); apply le_INR; cbn in K; lia).
    destruct (fsub_ok g v Fg Fv) as (F1 & V1). { big. }
    assert (B1 : Rabs (val g - val v) <= 201) by (apply Rabs_le_inv in Bg; apply Rabs_le_inv in Bv; apply Rabs_le; lra).
    pose proof (rnd_near _ _ B1 ltac:(lra)) as R1.
    assert (D1 : Rabs (Rabs (rnd (val g - val v)) - Rabs (val g - val v)) <= u * 201 + tiny) by (apply Rle_trans with (2 := R1); apply Rabs_triang_inv2).
    assert (F2 : finite (fabs (fsub g v)) = true) by now rewrite fabs_finite. assert (V2 : val (fabs (fsub g v)) = Rabs (rnd (val g - val v))) by now rewrite fabs_val, V1.
    pose proof (Rabs_pos (val g - val v)) as P1. pose proof (Rabs_pos (rnd (val g - val v))) as P2.
    assert (B3 : Rabs (val s + val (fabs (fsub g v))) <= 4100). { rewrite V2. apply Rabs_le_inv in E. apply Rabs_le_inv in D1. unfold u in D1. apply Rabs_le. lra. }
    destruct (fadd_ok s _ Fs F2) as (F3 & V3). { big. }
    pose proof (rnd_near _ _ B3 ltac:(lra)) as R3. rewrite <- V3 in R3. rewrite V2 in R3.
    assert (Step := IH q (fadd s (fabs (fsub g v))) (a + Rabs (val g - val v)) (e + / 2000000000000) (S k) ltac:(cbn in L; lia) (Forall_inv_tail G) (Forall_inv_tail Q) F3 ltac:(lra)).
    destruct Step as (T1 & T2).
    + apply Rabs_le_inv in E. apply Rabs_le_inv in D1. apply Rabs_le_inv in R3. unfold u in *. apply Rabs_le. lra.
    + rewrite S_INR. lra.
    + cbn in K. lia.
    + rewrite S_INR. lra.
    + split; [exact T1|]. now rewrite Rplus_assoc in T2.
Qed.
Lemma travel_real : forall guess q, length guess = length q -> (length guess <= 20)%nat -> Forall moderate guess -> Forall (fun v => finite v = true /\ Rabs (val v) <= 101) q ->
  finite (travel guess q) = true /\ Rabs (val (travel guess q) - displacement_of guess q) <= / 100000000000.
Proof.
  intros guess q L K G Q. unfold travel. replace (displacement_of guess q) with (0 + displacement_of guess q) by ring. apply (travel_near guess q fzero 0 0 0); try assumption; try lra; try reflexivity.
  - change (val fzero) with 0. rewrite Rminus_0_r, Rabs_R0. lra.
  - cbn. lra.
  - cbn. lra.
Qed.
Lemma inside_moderate : forall lo hi q, Forall moderate lo -> Forall moderate hi -> length lo = length hi -> inside lo hi q -> Forall (fun v => finite v = true /\ Rabs (val v) <= 101) q.
Proof.
  intros lo hi q Ml Mh Lh (L & N). apply Forall_forall. intros v Iv. apply In_nth_error in Iv as (i & Hi). assert (Hlt : (i < length lo)%nat) by (rewrite <- L; apply nth_error_Some; congruence).
  destruct (nth_error lo i) as [l|] eqn:Hl; [|apply nth_error_None in Hl; lia]. destruct (nth_error hi i) as [h|] eqn:Hh; [|apply nth_error_None in Hh; lia]. destruct (N i v l h Hi Hl Hh) as (Fv & Bv). split; [exact Fv|].
  rewrite Forall_forall in Ml, Mh. destruct (Ml l (nth_error_In _ _ Hl)) as (_ & B1). destruct (Mh h (nth_error_In _ _ Hh)) as (_ & B2). apply Rabs_le_inv in B1. apply Rabs_le_inv in B2. apply Rabs_le. lra.
Qed.
Lemma first_least : forall lo hi sols guess, Forall moderate lo -> Forall moderate hi -> length lo = length hi -> (length lo <= 20)%nat -> (forall q, In q sols -> length q = length lo) -> length guess = length lo -> Forall moderate guess ->
  (exists q', In q' sols /\ strictly_inside lo hi q') ->
  exists q last, cart_to_jnt false lo hi None sols guess = (Found q, last) /\ In q sols /\ inside lo hi q /\
    forall q', In q' sols -> strictly_inside lo hi q' -> displacement_of guess q <= displacement_of guess q' + / 10000000000.
Proof.
  intros lo hi sols guess Ml Mh Lh L20 Q Lg Mg EX.
  assert (Dl : Forall limit lo) by (apply Forall_impl with (2 := Ml); intros v (F & B); split; [exact F|lra]). assert (Dh : Forall limit hi) by (apply Forall_impl with (2 := Mh); intros v (F & B); split; [exact F|lra]).
  destruct (first_call lo hi sols guess Dl Dh Lh Q Lg EX) as (q & last & E & I & N & M). exists q, last. do 3 (split; [assumption|]). intros q' I' N'.
  assert (N2 : inside lo hi q'). { split; [now apply Q|]. intros i v l h A B C. destruct (N' i v l h A B C). split; [assumption|lra]. }
  destruct (travel_real guess q ltac:(rewrite (Q q I); lia) ltac:(lia) Mg (inside_moderate _ _ _ Ml Mh Lh N)) as (F1 & R1). destruct (travel_real guess q' ltac:(rewrite (Q q' I'); lia) ltac:(lia) Mg (inside_moderate _ _ _ Ml Mh Lh N2)) as (F2 & R2).
  specialize (M q' I' N'). apply fltb_false in M; try assumption. apply Rabs_le_inv in R1. apply Rabs_le_inv in R2. lra.
Qed.
