From Coq Require Import List ZArith Reals Lia Lra Psatz Bool.
From Flocq Require Import Core IEEE754.BinarySingleNaN.
From Verif Require Import F64 F64Facts F64More RoundedFacts AsibotF64 AsibotF64Spec.
Import ListNotations.
Open Scope R_scope.

(** ** the answer is within the limits *)
Lemma limit_within : forall v l h, degrees l -> degrees h -> checkJointInLimits v l h = true ->
  finite v = true /\ val l - 11 / 10000 <= val v <= val h + 11 / 10000.
Proof.
  intros v l h (Fl & Bl) (Fh & Bh) C. unfold checkJointInLimits in C. apply andb_true_iff in C as [C1 C2].
  destruct lit_milli as (FE & VE). change (lit 1 3) with eps in *.
  destruct (fsub_ok _ _ Fl FE) as (F1 & V1). { big. } destruct (fadd_ok _ _ Fh FE) as (F2 & V2). { big. }
  assert (Fv : finite v = true) by exact (between_finite v _ _ F1 F2 C1 C2). split; [exact Fv|].
  apply fleb_val in C1; try assumption. apply fleb_val in C2; try assumption. rewrite V1 in C1. rewrite V2 in C2.
  pose proof tiny_small.
  assert (R1 : Rabs (rnd (val l - val eps) - (val l - val eps)) <= u * 1000001 + tiny). { apply rnd_near; [apply Rabs_le_inv in Bl; apply Rabs_le; lra|lra]. }
  assert (R2 : Rabs (rnd (val h + val eps) - (val h + val eps)) <= u * 1000001 + tiny). { apply rnd_near; [apply Rabs_le_inv in Bh; apply Rabs_le; lra|lra]. }
  apply Rabs_le_inv in R1. apply Rabs_le_inv in R2. unfold u in *. lra.
Qed.
Lemma limits_within : forall q lo hi, Forall degrees lo -> Forall degrees hi -> checkJointsInLimits q lo hi = true ->
  forall i v l h, nth_error q i = Some v -> nth_error lo i = Some l -> nth_error hi i = Some h -> finite v = true /\ val l - 11 / 10000 <= val v <= val h + 11 / 10000.
Proof.
  induction q as [|a q IH]; intros lo hi Dl Dh C i v l h Hv Hl Hh; [destruct i; discriminate|].
  destruct lo as [|b lo]; [destruct i; discriminate|]. destruct hi as [|c hi]; [destruct i; discriminate|].
  cbn [checkJointsInLimits] in C. apply andb_true_iff in C as [C1 C2]. inversion Dl; inversion Dh; subst.
  destruct i as [|i]; cbn [nth_error] in Hv, Hl, Hh.
  - injection Hv as <-. injection Hl as <-. injection Hh as <-. now apply limit_within.
  - now apply (IH lo hi) with (i := i).
Qed.

Definition good (lo hi : list f64) (p : pose) : Prop := length (joints p) = 5%nat /\ (valid p = true -> checkJointsInLimits (joints p) lo hi = true).
Lemma configure_good : forall lo hi q1 q2u q2d q3 q4u q4d q5 ps, configure lo hi q1 q2u q2d q3 q4u q4d q5 = Some ps -> Forall (good lo hi) ps.
Proof.
  intros lo hi q1 q2u q2d q3 q4u q4d q5 ps H. unfold configure in H. destruct (fltb _ _); [discriminate|]. destruct (existsb _ _); [|discriminate]. injection H as <-.
  repeat constructor; cbn [joints valid stored]; auto.
Qed.
Lemma insert_in : forall k p m x, In x (map_insert k p m) -> x = (k, p) \/ In x m.
Proof.
  induction m as [|[k' p'] m IH]; intros x H; cbn [map_insert] in H.
  - destruct H as [<-|[]]. now left.
  - destruct (fltb k k'); [destruct H as [<-|H]; [now left|now right]|]. destruct (fltb k' k); [|now right].
    destruct H as [<-|H]; [right; now left|]. destruct (IH x H) as [E|E]; [now left|right; now right].
Qed.
Lemma displacements_in : forall guess ps x, In x (displacements guess ps) -> In (snd x) ps /\ valid (snd x) = true.
Proof.
  intros guess ps. unfold displacements. assert (G : forall ps m x, In x (fold_left (fun m p => if valid p then map_insert (displacement guess p) p m else m) ps m) -> In x m \/ (In (snd x) ps /\ valid (snd x) = true)).
  { induction ps0 as [|p ps0 IH]; intros m x H; [now left|]. cbn [fold_left] in H. destruct (IH _ _ H) as [E|[E1 E2]]; [|right; split; [now right|exact E2]].
    destruct (valid p) eqn:V; [|now left]. destruct (insert_in _ _ _ _ E) as [->|E']; [right; split; [now left|exact V]|now left]. }
  intros x H. destruct (G ps [] x H) as [[]|E]. exact E.
Qed.
Lemma optimal_in : forall guess ps q, findOptimal guess ps = Found q -> exists p, In p ps /\ valid p = true /\ q = joints p.
Proof.
  intros guess ps q H. unfold findOptimal in H. cbv zeta in H. destruct (existsb _ _ && _); [discriminate|].
  pose proof (displacements_in guess ps) as D. destruct (displacements guess ps) as [|[ka a] [|[kb b] m]]; [discriminate| |].
  - injection H as <-. exists a. destruct (D (ka, a) ltac:(now left)) as (D1 & D2). now repeat split.
  - destruct (D (ka, a) ltac:(now left)) as (D1 & D2). destruct (D (kb, b) ltac:(right; now left)) as (D3 & D4).
    destruct (Bool.eqb _ _); [destruct (_ || _)|]; injection H as <-; [exists b|exists a|exists a]; now repeat split.
Qed.

Lemma found_within : forall m s lo hi x y z oy oz5 guess q, Forall degrees lo -> Forall degrees hi ->
  invKin m s lo hi x y z oy oz5 guess = Found q -> within_limits lo hi q.
Proof.
  intros m s lo hi x y z oy oz5 guess q Dl Dh H. unfold invKin in H. destruct (closed_form m s x y z oy) as [a|]; [|discriminate].
  destruct (configure _ _ _ _ _ _ _ _ _) as [ps|] eqn:C; [|discriminate]. apply configure_good in C. destruct (optimal_in _ _ _ H) as (p & P1 & P2 & ->).
  rewrite Forall_forall in C. destruct (C p P1) as (L & G). split; [exact L|]. intros i v l h. apply limits_within; try assumption. now apply G.
Qed.

(** ** the choice is never undefined: the angles of the configurations are numbers, so the
    displacements are all NaN or none is *)
Lemma diffs_kind : forall guess q, Forall (fun v => finite v = true) q -> Forall (fun d => isnan d = true \/ plus d) (getDiffs guess q).
Proof.
  induction guess as [|g guess IH]; intros [|v q] Q; try constructor; inversion Q as [|? ? Fv Q']; subst.
  - destruct (isnan g) eqn:N; [left|right].
    + now rewrite fabs_nan, fsub_nan.
    + assert (M : isnan (fsub g v) = false) by now rewrite fsub_nan. split; [now rewrite fabs_nan|now apply fabs_sign].
  - now apply IH.
Qed.
Lemma diffs_nan : forall guess q, Forall (fun v => finite v = true) q -> existsb isnan (getDiffs guess q) = existsb isnan (firstn (length q) guess).
Proof.
  induction guess as [|g guess IH]; intros [|v q] Q; try reflexivity. inversion Q as [|? ? Fv Q']; subst. cbn [getDiffs existsb firstn length]. now rewrite fabs_nan, fsub_nan, IH.
Qed.
Lemma displacement_nan : forall guess p, Forall (fun v => finite v = true) (joints p) -> isnan (displacement guess p) = existsb isnan (firstn (length (joints p)) guess).
Proof.
  intros guess p Q. unfold displacement. destruct (total_nan (getDiffs guess (joints p)) fzero zero_plus (diffs_kind _ _ Q)) as (-> & _). now apply diffs_nan.
Qed.
Lemma good_finite : forall lo hi p, length lo = 5%nat -> length hi = 5%nat -> Forall degrees lo -> Forall degrees hi -> good lo hi p -> valid p = true -> Forall (fun v => finite v = true) (joints p).
Proof.
  intros lo hi p Ll Lh Dl Dh (L & C) V. specialize (C V). apply Forall_forall. intros v Iv. apply In_nth_error in Iv as (i & Hi). assert (Hlt : (i < 5)%nat) by (rewrite <- L; apply nth_error_Some; congruence).
  destruct (nth_error lo i) as [l|] eqn:Hl; [|apply nth_error_None in Hl; lia]. destruct (nth_error hi i) as [h|] eqn:Hh; [|apply nth_error_None in Hh; lia].
  now destruct (limits_within _ _ _ Dl Dh C i v l h Hi Hl Hh).
Qed.
Lemma alike : forall (ks : list f64) b, Forall (fun k => isnan k = b) ks -> existsb isnan ks && negb (forallb isnan ks) = false.
Proof.
  intros ks [] H.
  - assert (F : forallb isnan ks = true) by (apply forallb_forall; rewrite Forall_forall in H; exact H). rewrite F. now rewrite andb_false_r.
  - assert (E : existsb isnan ks = false). { apply not_true_iff_false. intro E. apply existsb_exists in E as (k & I & E). rewrite Forall_forall in H. rewrite (H k I) in E. discriminate. } now rewrite E.
Qed.

Lemma optimal_defined : forall lo hi guess ps, length lo = 5%nat -> length hi = 5%nat -> Forall degrees lo -> Forall degrees hi -> Forall (good lo hi) ps ->
  findOptimal guess ps <> Undefined.
Proof.
  intros lo hi guess ps Ll Lh Dl Dh P. unfold findOptimal. cbv zeta.
  rewrite (alike _ (existsb isnan (firstn 5 guess))).
  - destruct (displacements guess ps) as [|[ka a] [|[kb b] m]]; try discriminate. destruct (Bool.eqb _ _); discriminate.
  - apply Forall_forall. intros k I. apply in_map_iff in I as (p & <- & I). apply filter_In in I as (I & V). rewrite Forall_forall in P. pose proof (P p I) as G.
    rewrite displacement_nan by now apply (good_finite lo hi). destruct G as (L & _). now rewrite L.
Qed.
Lemma invKin_defined : forall m s lo hi x y z oy oz5 guess, length lo = 5%nat -> length hi = 5%nat -> Forall degrees lo -> Forall degrees hi ->
  invKin m s lo hi x y z oy oz5 guess <> Undefined.
Proof.
  intros m s lo hi x y z oy oz5 guess Ll Lh Dl Dh. unfold invKin. destruct (closed_form m s x y z oy) as [a|]; [|discriminate].
  destruct (configure _ _ _ _ _ _ _ _ _) as [ps|] eqn:C; [|discriminate]. apply configure_good in C. now apply (optimal_defined lo hi).
Qed.
