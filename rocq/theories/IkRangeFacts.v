(** The angles of the candidates. *)
From Coq Require Import Reals List Bool Arith Lia Lra Permutation.
From Verif Require Import Kdl KdlFacts Screw ScrewFacts Subproblems SubproblemFacts IkProblem IkSpec IkProblemFacts IkProblemFacts2 IkProblemFacts3 Builder BuilderSpec BuilderFacts3 Trig TrigFacts KdlRot IkPoseFacts4.
Import ListNotations.
Open Scope R_scope.
Local Notation S := Datatypes.S.

Definition rotates (s : sub) : Prop := match s with SPK1 _ _ _ | SPK2 _ _ _ _ _ _ | SPK3 _ _ _ _ | SPG4 _ _ _ _ _ => True | _ => False end.

Lemma turned y x : - PI < normalizeAngle (atan2 y x) <= PI.
Proof. pose proof (atan2_bound y x). pose proof PI_RGT_0. apply snap. lra. Qed.

(** every angle of a local solution *)
Lemma local_range s rhs h flag locs loc id th : rotates s -> st_solve (sub_step s) rhs h = Some (flag, locs) -> In loc locs -> In (id, th) loc -> - PI < th <= PI.
Proof.
  pose proof PI_RGT_0 as P0.
  assert (one : forall i y x loc', loc' = [(i, normalizeAngle (atan2 y x))] -> In (id, th) loc' -> - PI < th <= PI).
  { intros i y x loc' -> [E|[]]. injection E as _ <-. apply turned. }
  assert (two : forall i j y x y' x' loc', loc' = [(i, normalizeAngle (atan2 y x)); (j, normalizeAngle (atan2 y' x'))] -> In (id, th) loc' -> - PI < th <= PI).
  { intros i j y x y' x' loc' -> [E|[E|[]]]; injection E as _ <-; apply turned. }
  destruct s; cbn [rotates sub_step st_solve pk1_step pk2_step pk3_step pg4_step]; intros R E I J; try contradiction.
  - unfold pk1_solve in E. cbv zeta in E. injection E as _ <-. destruct I as [<-|[]]. eapply one; [reflexivity|exact J].
  - unfold pk2_solve in E. cbv zeta in E. do 3 (destruct (fdiv _ _) in E; [|discriminate]; cbv beta iota delta [obind] in E).
    destruct (negb _ && _) in E; injection E as _ <-; destruct I as [<-|[<-|[]]]; (eapply two; [reflexivity|exact J]).
  - unfold pk3_solve in E. cbv zeta in E. destruct (fdiv _ _) as [b|] in E; [|discriminate]. cbv beta iota delta [obind] in E.
    match type of E with context [atan2 ?y ?x] => pose proof (atan2_bound y x) as A; set (al := atan2 y x) in * end.
    pose proof (acos_bound (Rmax (-1) (Rmin 1 b))) as B.
    destruct (negb _ && _) in E; injection E as _ <-; destruct I as [<-|[<-|[]]]; destruct J as [J|[]]; injection J as _ <-; apply snap; lra.
  - unfold pg4_solve in E. cbv zeta in E. destruct (negb _ && _) in E.
    + do 2 (destruct (fdiv _ _) in E; [|discriminate]; cbv beta iota delta [obind] in E). injection E as _ <-. destruct I as [<-|[<-|[]]]; (eapply two; [reflexivity|exact J]).
    + repeat match type of E with context [if ?b then _ else _] => destruct b end; repeat match type of E with context [fdiv ?a ?b] => destruct (fdiv a b); [|discriminate] end;
      injection E as _ <-; destruct I as [<-|[<-|[]]]; (eapply two; [reflexivity|exact J]).
Qed.

(** what a step assigns is a joint of its kind *)
Lemma local_ids s rhs h flag locs loc : st_solve (sub_step s) rhs h = Some (flag, locs) -> In loc locs -> map fst loc = sub_ids s.
Proof.
  intros E I. assert (K : step_ok (sub_step s) (sub_ids s)).
  { destruct s; cbn [sub_step sub_ids]; [apply pk1_ok|apply pk2_ok|apply pk3_ok|apply pg1_ok|apply pg2_ok|apply pg3_ok|apply pg4_ok]. }
  destruct K as (_ & _ & K). exact (proj2 (K _ _ _ _ E) loc I).
Qed.

Lemma step_ok_sub s : step_ok (sub_step s) (sub_ids s).
Proof. destruct s; cbn [sub_step sub_ids]; [apply pk1_ok|apply pk2_ok|apply pk3_ok|apply pg1_ok|apply pg2_ok|apply pg3_ok|apply pg4_ok]. Qed.

Lemma accepted_rotates es s id e : accepted es s -> In id (sub_ids s) -> nth_error es id = Some e -> e_motion e = ROTATION -> rotates s.
Proof.
  intros A I N M. destruct s; cbn in *; try exact Logic.I; exfalso; intuition (subst; congruence).
Qed.

(** what a candidate has in each place was found by some step, or is zero *)
Section Range.
Variables (p : poe) (reversed : bool) (target : frame) (ss : list sub).
Let n := length (exps p).

Lemma assign_cases loc q j x : nth_error (assign p reversed loc q) j = Some x ->
  nth_error q j = Some x \/ exists id th, In (id, th) loc /\ j = slot p reversed id /\ x = (if reversed then - th else th).
Proof.
  unfold assign. revert q. induction loc as [|[id th] loc IH]; intros q H; cbn [fold_left] in H; [left; exact H|].
  destruct (IH _ H) as [G|(i & t & I & J & X)]; [|right; exists i, t; split; [right; exact I|auto]].
  cbn [fst snd] in G. destruct (Nat.eq_dec (slot p reversed id) j) as [<-|N]; [|left; rewrite put_other in G by exact N; exact G].
  right. exists id, th. split; [left; reflexivity|]. split; [reflexivity|].
  assert (L : (slot p reversed id < length q)%nat) by (rewrite <- (put_length _ q (slot p reversed id) (if reversed then - th else th)); apply nth_error_Some; rewrite G; discriminate).
  rewrite put_same in G by exact L. injection G as <-. reflexivity.
Qed.

Lemma derived_cases marks l ks q ok : derived p reversed target marks (problem_steps l) ks q ok -> forall j x, nth_error q j = Some x ->
  x = 0 \/ exists s id th rhs h flag locs loc, In s l /\ st_solve (sub_step s) rhs h = Some (flag, locs) /\ In loc locs /\ In (id, th) loc /\ j = slot p reversed id /\ x = (if reversed then - th else th).
Proof.
  remember (problem_steps l) as pl eqn:E. intros D. revert l E. induction D as [|pl ks q ok s ids a b rhs h flag locs k loc D IH F Re Rh Po So N]; intros l E j x H.
  - left. apply nth_error_In, repeat_spec in H. exact H.
  - destruct l as [|s0 l0] using rev_ind; [destruct pl; discriminate|]. clear IHl0. unfold problem_steps in E. rewrite map_app in E. cbn [map] in E.
    apply app_inj_tail in E. destruct E as [E1 E2]. injection E2 as -> ->.
    destruct (assign_cases _ _ _ _ H) as [G|(id & th & I & J & X)].
    + destruct (IH l0 E1 j x G) as [Z|(s & id & th & rhs' & h' & flag' & locs' & loc' & A & B)]; [left; exact Z|].
      right. exists s, id, th, rhs', h', flag', locs', loc'. split; [apply in_or_app; left; exact A|exact B].
    + right. exists s0, id, th, rhs, h, flag, locs, loc. split; [apply in_or_app; right; left; reflexivity|]. split; [exact So|]. split; [eapply nth_error_In; exact N|auto].
Qed.
End Range.

Lemma slot_inj p reversed i j : (i < length (exps p))%nat -> (j < length (exps p))%nat -> slot p reversed i = slot p reversed j -> i = j.
Proof. unfold slot. destruct reversed; lia. Qed.

Lemma nth_error_rev A (l : list A) i : (i < length l)%nat -> nth_error (rev l) i = nth_error l (length l - S i).
Proof.
  intros L. destruct l as [|d l0] eqn:E; [cbn in L; lia|]. rewrite <- E in *.
  rewrite (nth_error_nth' (rev l) d) by (rewrite rev_length; exact L). rewrite rev_nth by exact L. rewrite (nth_error_nth' l d) by lia. reflexivity.
Qed.

Theorem built_range fuel draws p p' ss rev_ target flag cands q : poe_ok p -> build fuel draws p = Returns (Some (p', ss, rev_)) ->
  ik_solve p' (map sub_step ss) rev_ target = Some (flag, cands) -> In q cands -> length q = length (exps p) /\
  forall i e x, nth_error (exps p) i = Some e -> e_motion e = ROTATION -> nth_error q i = Some x -> - PI <= x <= PI.
Proof.
  intros POK B SV I. destruct (build_complete_drawn _ _ _ _ _ _ B) as (Ep & PM & AC).
  assert (POK' : poe_ok p') by (rewrite Ep; destruct rev_; [apply ok_reverse|]; exact POK).
  assert (Ln : length (exps p') = length (exps p)) by (rewrite Ep; destruct rev_; [unfold reverseSelf; cbn [exps]; rewrite rev_length, map_length|]; reflexivity).
  assert (SOK : steps_ok (length (exps p')) (problem_steps ss)).
  { assert (Q : concat (map snd (problem_steps ss)) = concat (map sub_ids ss)) by (unfold problem_steps; rewrite map_map; reflexivity).
    split; [|rewrite Q; split; [apply (Permutation_NoDup (Permutation_sym PM)), seq_NoDup|]].
    - intros s ids J. unfold problem_steps in J. apply in_map_iff in J. destruct J as (s0 & E & _). injection E as <- <-. apply step_ok_sub.
    - intros i J. apply (Permutation_in _ PM), in_seq in J. lia. }
  destruct (list_eq_dec Nat.eq_dec (concat (map sub_ids ss)) []) as [NI|NI].
  - rewrite NI in PM. apply Permutation_nil in PM. assert (Z : length (exps p) = 0%nat) by (destruct (length (exps p)); [reflexivity|discriminate]).
    assert (ss = []) as ->. { destruct ss as [|s ss]; [reflexivity|]. exfalso. destruct s; discriminate NI. }
    unfold ik_solve in SV. cbn in SV. injection SV as <- <-. destruct I as [<-|[]]. rewrite Ln, Z. split; [reflexivity|].
    intros i e x N. destruct (exps p); [destruct i; discriminate|discriminate].
  - assert (NE : problem_steps ss <> []) by (intro E; apply NI; destruct ss; [reflexivity|discriminate]).
    assert (SV' : ik_solve p' (map fst (problem_steps ss)) rev_ target = Some (flag, cands)) by (unfold problem_steps; rewrite map_map; exact SV).
    destruct (solve_spec p' rev_ target POK' _ _ _ SOK NE SV') as (_ & LQ & bs & _ & _ & D).
    split; [rewrite <- Ln; apply LQ, I|]. apply In_nth_error in I. destruct I as (c & I). specialize (D c q I).
    intros i e x N M X. pose proof PI_RGT_0. destruct (derived_cases _ _ _ _ _ _ _ _ D i x X) as [->|(s & id & th & rhs & h & fl & locs & loc & A & B0 & C & G & J & ->)]; [lra|].
    assert (IDS : In id (sub_ids s)) by (rewrite <- (local_ids _ _ _ _ _ _ B0 C); apply in_map_iff; exists (id, th); auto).
    assert (LT : (id < length (exps p))%nat).
    { assert (In id (concat (map sub_ids ss))) by (apply in_concat; exists (sub_ids s); split; [apply in_map; exact A|exact IDS]). apply (Permutation_in _ PM), in_seq in H0. lia. }
    assert (R : exists e', nth_error (exps p') id = Some e' /\ e_motion e' = ROTATION).
    { rewrite Ep. unfold slot in J. rewrite Ln in J. destruct rev_; [|exists e; subst; auto].
      unfold reverseSelf. cbn [exps]. set (l := map (fun e0 => changeBase e0 (finv (tool p))) (exps p)).
      assert (LL : length l = length (exps p)) by apply map_length.
      exists (changeBase e (finv (tool p))). split; [|destruct e; cbn in *; exact M].
      rewrite nth_error_rev by (rewrite LL; exact LT). rewrite LL. replace (length (exps p) - S id)%nat with i by lia. unfold l. rewrite nth_error_map, N. reflexivity. }
    destruct R as (e' & N' & M'). rewrite Forall_forall in AC. pose proof (accepted_rotates _ _ _ _ (AC s A) IDS N' M') as RO.
    pose proof (local_range _ _ _ _ _ _ _ _ RO B0 C G). destruct rev_; lra.
Qed.
