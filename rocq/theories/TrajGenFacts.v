(** Proofs about the trajectory generators. *)
From Coq Require Import Reals Lra Bool.
From Verif Require Import Kdl KdlFacts Trig TrajGen.
Open Scope R_scope.

Lemma fdiv_some : forall x y, y <> 0 -> fdiv x y = Some (x / y).
Proof. intros x y H. unfold fdiv. destruct (Reqb y 0) eqn:E; [apply Reqb_true in E; contradiction|reflexivity]. Qed.
Lemma cube_nz : forall T, 0 < T -> T * T * T <> 0 /\ T * T <> 0.
Proof. intros T H. split; repeat apply Rmult_integral_contrapositive_currified; lra. Qed.

Lemma rest_form : forall o xi xf T, 0 < T -> configure o xi xf T = Some
  match o with
  | First => OrderOne T ((xf - xi) / T) xi
  | Third => OrderThree (2 * (xi - xf) / (T * T * T)) ((xf - xi) / (T * T) - 2 * (xi - xf) / (T * T * T) * T) 0 xi T
  end.
Proof.
  intros o xi xf T H. destruct (cube_nz T H). destruct o; cbn; rewrite !fdiv_some by (assumption || lra); reflexivity.
Qed.

Ltac cases := repeat match goal with |- context[Rltb ?a ?b] => let E := fresh "E" in destruct (Rltb a b) eqn:E; [apply Rltb_true in E|apply Rltb_false in E] end.

Lemma rest_boundary : forall o xi xf T t, 0 < T -> configure o xi xf T = Some t ->
  get t 0 = xi /\ get t T = xf /\ getT t = T /\
  (o = Third -> getdot t 0 = 0 /\ getdot t T = 0 /\ forall u, T <= u -> get t u = xf /\ getdot t u = 0).
Proof.
  intros o xi xf T t H C. rewrite rest_form in C by assumption. injection C as <-. destruct o; cbn [get getT getdot].
  - repeat split; try discriminate; try field; lra.
  - repeat split; intros; cases; try lra; try (field; lra). 
    all: try (assert (u = T) by lra; subst u; field; lra).
Qed.

Lemma velocity_form : forall xi xf vi vf T, 0 < T -> exists t, configure_velocities Third xi xf vi vf T = Some (true, Some t) /\
  t = OrderThree (2 * (xi - xf) / (T * T * T) + (vf + vi) / (T * T))
    ((xf - xi - vi * T) / (T * T) - (2 * (xi - xf) / (T * T * T) + (vf + vi) / (T * T)) * T) vi xi T.
Proof.
  intros. destruct (cube_nz T H). eexists. split; [|reflexivity]. cbn. rewrite !fdiv_some by assumption. reflexivity.
Qed.
Lemma velocity_boundary : forall xi xf vi vf T, 0 < T ->
  exists t, configure_velocities Third xi xf vi vf T = Some (true, Some t) /\
  get t 0 = xi /\ get t T = xf /\ getdot t 0 = vi /\ getdot t T = vf /\ getT t = T /\
  forall u, T <= u -> get t u = xf /\ getdot t u = vf.
Proof.
  intros. destruct (velocity_form xi xf vi vf T H) as (t & E & ->). eexists. split; [exact E|]. cbn [get getdot getT].
  repeat split; intros; cases; try lra; try (field; lra).
  all: try (assert (u = T) by lra; subst u; field; lra).
Qed.

Lemma poly_deriv : forall a b c d x, derivable_pt_lim (fun u => a * u * u * u + b * u * u + c * u + d) x (3 * a * x * x + 2 * b * x + c).
Proof.
  intros. replace (3 * a * x * x + 2 * b * x + c) with
    ((((((0 * x + a * 1) * x + a * x * 1) * x + a * x * x * 1)) + ((0 * x + b * 1) * x + b * x * 1) + (0 * x + c * 1)) + 0) by ring.
  pose proof (derivable_pt_lim_id x) as I.
  assert (Cn : forall k, derivable_pt_lim (fun _ => k) x 0) by (intros; apply (derivable_pt_lim_const k x)).
  assert (M : forall f g f' g', derivable_pt_lim f x f' -> derivable_pt_lim g x g' -> derivable_pt_lim (fun u => f u * g u) x (f' * g x + f x * g'))
    by (intros; apply derivable_pt_lim_mult; assumption).
  assert (A : forall f g f' g', derivable_pt_lim f x f' -> derivable_pt_lim g x g' -> derivable_pt_lim (fun u => f u + g u) x (f' + g'))
    by (intros; apply derivable_pt_lim_plus; assumption).
  assert (L : forall k, derivable_pt_lim (fun u => k * u) x (0 * x + k * 1)) by (intros; apply (M (fun _ => k) (fun u => u)); auto).
  apply (A _ (fun _ => d)); [|auto]. apply A; [apply A|]; [| |apply L].
  - apply (M (fun u => a * u * u) (fun u => u)); [|exact I]. apply (M (fun u => a * u) (fun u => u)); [apply L|exact I].
  - apply (M (fun u => b * u) (fun u => u)); [apply L|exact I].
Qed.
Lemma deriv_local : forall f g x l d, 0 < d -> (forall u, Rabs (u - x) < d -> f u = g u) -> derivable_pt_lim g x l -> derivable_pt_lim f x l.
Proof.
  intros f g x l d D E G eps P. destruct (G eps P) as (d' & H). assert (M : 0 < Rmin d' d) by (apply Rmin_pos; [apply cond_pos|assumption]).
  exists (mkposreal _ M). intros h N L. cbn in L. rewrite !E.
  - apply H; auto. eapply Rlt_le_trans; [exact L|apply Rmin_l].
  - unfold Rminus. rewrite Rplus_opp_r, Rabs_R0. exact D.
  - replace (x + h - x) with h by ring. eapply Rlt_le_trans; [exact L|apply Rmin_r].
Qed.
Lemma below_T : forall x T, x < T -> forall u, Rabs (u - x) < T - x -> Rltb T u = false.
Proof. intros x T H u A. destruct (Rltb T u) eqn:E; [|reflexivity]. apply Rltb_true in E. apply Rabs_def2 in A. lra. Qed.
(** the reported velocity and acceleration are the derivatives *)
Lemma derivatives : forall t x, x < getT t -> derivable_pt_lim (get t) x (getdot t x) /\ derivable_pt_lim (getdot t) x (getdotdot t x).
Proof.
  intros [T m b|a3 a2 a1 a0 T] x H; cbn [getT] in H.
  - split.
    + apply (deriv_local _ (fun u => 0 * u * u * u + 0 * u * u + m * u + b) _ _ 1); [lra|intros; cbn; ring|].
      replace (getdot (OrderOne T m b) x) with (3 * 0 * x * x + 2 * 0 * x + m) by (cbn; ring). apply poly_deriv.
    + apply (derivable_pt_lim_const m x).
  - pose proof (below_T x T H) as B. assert (R : Rltb T x = false) by (apply B; unfold Rminus at 1; rewrite Rplus_opp_r, Rabs_R0; lra).
    split.
    + eapply (deriv_local _ _ _ _ (T - x)); [lra| |cbn; rewrite R; apply poly_deriv]. intros u A. cbn. rewrite (B u A). reflexivity.
    + apply (deriv_local _ (fun u => 0 * u * u * u + 3 * a3 * u * u + 2 * a2 * u + a1) _ _ (T - x)); [lra| |].
      * intros u A. cbn. rewrite (B u A). ring.
      * cbn. rewrite R. replace (6 * a3 * x + 2 * a2) with (3 * 0 * x * x + 2 * (3 * a3) * x + 2 * a2) by ring. apply poly_deriv.
Qed.

(** in units of the duration *)
Lemma rest_get : forall xi xf T u, 0 < T -> 0 <= u <= T -> let s := u / T in
  get (OrderThree (2 * (xi - xf) / (T * T * T)) ((xf - xi) / (T * T) - 2 * (xi - xf) / (T * T * T) * T) 0 xi T) u = xi + (xf - xi) * (s * s * (3 - 2 * s)) /\
  getdot (OrderThree (2 * (xi - xf) / (T * T * T)) ((xf - xi) / (T * T) - 2 * (xi - xf) / (T * T * T) * T) 0 xi T) u = 6 * (xf - xi) / T * (s * (1 - s)) /\
  getdotdot (OrderThree (2 * (xi - xf) / (T * T * T)) ((xf - xi) / (T * T) - 2 * (xi - xf) / (T * T * T) * T) 0 xi T) u = 6 * (xf - xi) / (T * T) * (1 - 2 * s).
Proof.
  intros xi xf T u H U s. unfold s. cbn [get getdot getdotdot]. cases; [lra|]. repeat split; field; lra.
Qed.
Lemma unit_s : forall T u, 0 < T -> 0 <= u <= T -> 0 <= u / T <= 1.
Proof.
  intros T u H U. assert (I : 0 < / T) by (apply Rinv_0_lt_compat; lra). unfold Rdiv. split; [apply Rmult_le_pos; lra|].
  apply (Rmult_le_reg_r T); [lra|]. rewrite Rmult_assoc, Rinv_l by lra. lra.
Qed.
Lemma rest_between : forall o xi xf T t u, 0 < T -> configure o xi xf T = Some t -> 0 <= u <= T ->
  Rmin xi xf <= get t u <= Rmax xi xf.
Proof.
  intros o xi xf T t u H C U. rewrite rest_form in C by assumption. injection C as <-.
  pose proof (unit_s T u H U) as S1.
  assert (K : exists k, 0 <= k <= 1 /\ get match o with First => OrderOne T ((xf - xi) / T) xi
     | Third => OrderThree (2 * (xi - xf) / (T * T * T)) ((xf - xi) / (T * T) - 2 * (xi - xf) / (T * T * T) * T) 0 xi T end u = xi + (xf - xi) * k).
  { destruct o.
    - exists (u / T). split; [exact S1|]. cbn. field. lra.
    - exists (u / T * (u / T) * (3 - 2 * (u / T))). split; [|apply rest_get; auto]. generalize dependent (u / T). intros s B.
      assert (0 <= s * s <= 1) by (split; [apply Rle_0_sqr|nra]). split; [apply Rmult_le_pos; lra|]. 
      assert (0 <= (1 - s) * (1 - s) * (1 + 2 * s)) by (apply Rmult_le_pos; [apply Rle_0_sqr|lra]). lra. }
  destruct K as (k & K1 & ->). unfold Rmin, Rmax. destruct (Rle_dec xi xf); nra.
Qed.

(** limits *)
Lemma bool_iff : forall a b, Rltb a b = true <-> a < b.
Proof. intros. split; [apply Rltb_true|]. intros H. destruct (Rltb a b) eqn:E; [reflexivity|apply Rltb_false in E; lra]. Qed.
Lemma velocity_sound : forall o xi xf T t v, 0 < T -> xi <= xf -> configure o xi xf T = Some t ->
  (maxVelBelow t v = true <-> forall u, 0 <= u <= T -> Rabs (getdot t u) < v).
Proof.
  intros o xi xf T t v H L C. rewrite rest_form in C by assumption. injection C as <-.
  assert (D : 0 <= (xf - xi) / T) by (apply Rmult_le_pos; [lra|left; apply Rinv_0_lt_compat; lra]).
  destruct o; unfold maxVelBelow; rewrite bool_iff.
  - cbn [getdot]. rewrite Rabs_pos_eq by exact D. split; auto. intros A. apply (A 0). lra.
  - rewrite (proj1 (proj2 (rest_get xi xf T (T / 2) H ltac:(lra)))).
    replace (T / 2 / T) with (1 / 2) by (field; lra). 
    split.
    + intros A u U. rewrite (proj1 (proj2 (rest_get xi xf T u H U))). pose proof (unit_s T u H U) as S1. revert S1. generalize (u / T). intros s S1.
      assert (Q : 0 <= s * (1 - s) <= 1 / 4) by (split; [apply Rmult_le_pos; lra|pose proof (Rle_0_sqr (s - 1 / 2)); unfold Rsqr in *; lra]).
      replace (6 * (xf - xi) / T) with (6 * ((xf - xi) / T)) in * by (field; lra). rewrite Rabs_pos_eq by (apply Rmult_le_pos; lra).
      revert A D Q. generalize ((xf - xi) / T), (s * (1 - s)). intros x y A D Q. nra.
    + intros A. specialize (A (T / 2) ltac:(lra)). rewrite (proj1 (proj2 (rest_get xi xf T (T / 2) H ltac:(lra)))) in A.
      replace (T / 2 / T) with (1 / 2) in A by (field; lra). eapply Rle_lt_trans; [apply Rle_abs|exact A].
Qed.
Lemma never_refused : forall t v, 0 <= getT t -> (forall u, 0 <= u <= getT t -> Rabs (getdot t u) < v) -> maxVelBelow t v = true.
Proof.
  intros t v H A. assert (B : forall u, 0 <= u <= getT t -> getdot t u < v) by (intros; eapply Rle_lt_trans; [apply Rle_abs|auto]).
  destruct t as [T m b|a3 a2 a1 a0 T]; cbn [getT] in *; unfold maxVelBelow; apply bool_iff; [apply (B 0)|apply (B (T / 2))]; lra.
Qed.
Lemma never_refused_acc : forall t v, 0 <= getT t -> (forall u, 0 <= u <= getT t -> Rabs (getdotdot t u) < v) -> maxAccBelow t v = true.
Proof.
  intros t v H A. assert (B : forall u, 0 <= u <= getT t -> getdotdot t u < v) by (intros; eapply Rle_lt_trans; [apply Rle_abs|auto]).
  destruct t as [T m b|a3 a2 a1 a0 T]; cbn [getT] in *; unfold maxAccBelow; apply bool_iff; [apply (B 0)|apply (B (T / 2))]; lra.
Qed.
Lemma acceleration_blind : forall o xi xf T t a, 0 < T -> configure o xi xf T = Some t -> (maxAccBelow t a = true <-> 0 < a).
Proof.
  intros o xi xf T t a H C. rewrite rest_form in C by assumption. injection C as <-.
  destruct o; unfold maxAccBelow; rewrite bool_iff; [reflexivity|].
  rewrite (proj2 (proj2 (rest_get xi xf T (T / 2) H ltac:(lra)))). replace (T / 2 / T) with (1 / 2) by (field; lra).
  replace (6 * (xf - xi) / (T * T) * (1 - 2 * (1 / 2))) with 0; [reflexivity|field; lra].
Qed.
Lemma linear_acceleration : forall xi xf T t a, 0 < T -> configure First xi xf T = Some t ->
  (maxAccBelow t a = true <-> forall u, 0 <= u <= T -> Rabs (getdotdot t u) < a).
Proof.
  intros xi xf T t a H C. rewrite (acceleration_blind First xi xf T t a H C). rewrite rest_form in C by assumption. injection C as <-. cbn. rewrite Rabs_R0.
  split; auto. intros A. apply (A 0). lra.
Qed.

(** witnesses *)
Lemma back_one : configure Third 1 0 1 = Some (OrderThree 2 (-3) 0 1 1) /\ configure First 1 0 1 = Some (OrderOne 1 (-1) 1).
Proof. rewrite !rest_form by lra. split; f_equal; f_equal; field. Qed.
Lemma velocity_unsound : forall o, exists xi xf T t v u, 0 < T /\ configure o xi xf T = Some t /\ maxVelBelow t v = true /\ 0 <= u <= T /\ v < Rabs (getdot t u).
Proof.
  intros [|].
  - exists 1, 0, 1, (OrderOne 1 (-1) 1), (/ 2), 0. split; [lra|]. split; [apply back_one|]. split; [apply bool_iff; lra|]. split; [lra|]. cbn. rewrite Rabs_left; lra.
  - exists 1, 0, 1, (OrderThree 2 (-3) 0 1 1), 1, (1 / 2). split; [lra|]. split; [apply back_one|].
    assert (E : getdot (OrderThree 2 (-3) 0 1 1) (1 / 2) = - (3 / 2)) by (cbn; cases; lra).
    split; [unfold maxVelBelow; apply bool_iff; rewrite E; lra|]. split; [lra|]. rewrite E, Rabs_left; lra.
Qed.
Lemma acceleration_unsound : exists xi xf T t a u, 0 < T /\ configure Third xi xf T = Some t /\ maxAccBelow t a = true /\ 0 <= u <= T /\ a < Rabs (getdotdot t u).
Proof.
  exists 1, 0, 1, (OrderThree 2 (-3) 0 1 1), 1, 0. split; [lra|]. split; [apply back_one|].
  split; [unfold maxAccBelow; apply bool_iff; cbn; cases; lra|]. split; [lra|]. cbn; cases; [lra|]. rewrite Rabs_left; lra.
Qed.
(** with an initial velocity the largest velocity is elsewhere, even for a motion onwards *)
Lemma velocity_start_unsound : exists xi xf vi vf T t v u, 0 < T /\ xi < xf /\ 0 <= vi /\ 0 <= vf /\ configure_velocities Third xi xf vi vf T = Some (true, Some t) /\
  maxVelBelow t v = true /\ 0 <= u <= T /\ v < getdot t u.
Proof.
  exists 0, 1, 6, 0, 1. destruct (velocity_form 0 1 6 0 1 Rlt_0_1) as (t & E & D). exists t, 1, 0.
  repeat (split; [lra|]). split; [exact E|]. subst t. split; [unfold maxVelBelow; apply bool_iff; cbn; cases; lra|]. split; [lra|]. cbn; cases; lra.
Qed.
Lemma outside_moves : (exists xi xf T t u, 0 < T /\ configure First xi xf T = Some t /\ T < u /\ get t u <> xf) /\
  (forall o, exists xi xf T t u, 0 < T /\ configure o xi xf T = Some t /\ u < 0 /\ get t u <> xi) /\
  (exists xi xf T t u, 0 < T /\ configure Third xi xf T = Some t /\ T < u /\ getdotdot t u <> 0).
Proof.
  split; [|split].
  - exists 1, 0, 1, (OrderOne 1 (-1) 1), 2. split; [lra|]. split; [apply back_one|]. cbn. lra.
  - intros [|]; [exists 1, 0, 1, (OrderOne 1 (-1) 1), (-1)|exists 1, 0, 1, (OrderThree 2 (-3) 0 1 1), (-1)];
      (split; [lra|]; split; [apply back_one|]; split; [lra|]; cbn; cases; lra).
  - exists 1, 0, 1, (OrderThree 2 (-3) 0 1 1), 2. split; [lra|]. split; [apply back_one|]. split; [lra|]. cbn; cases; lra.
Qed.
(** an instance of the hypotheses about motions onwards *)
Lemma onwards_one : configure Third 0 1 1 = Some (OrderThree (-2) 3 0 0 1) /\ maxVelBelow (OrderThree (-2) 3 0 0 1) 2 = true.
Proof.
  rewrite rest_form by lra. split; [f_equal; f_equal; field|].
  assert (E : getdot (OrderThree (-2) 3 0 0 1) (1 / 2) = 3 / 2) by (cbn; cases; lra).
  unfold maxVelBelow; apply bool_iff; rewrite E; lra.
Qed.
