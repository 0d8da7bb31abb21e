(** The candidates of the problems that the builder returns for arms with a spherical wrist. *)
From Coq Require Import Reals Lra List Bool Lia Arith.
From Verif Require Import Kdl KdlFacts Screw ScrewFacts Trig Subproblems SubproblemSpec2
  IkProblem IkSpec Builder BuilderSpec BuilderFacts BuilderFacts2 BuilderFacts3 IkPoseSpec IkPoseFacts IkPoseFacts2 IkPoseFacts3.
Import ListNotations.
Open Scope R_scope.
Local Notation S := Datatypes.S.

Lemma six : forall es r w x y, wrist_arm es r w x y -> exists e0 e1 e2 e3 e4 e5, es = [e0; e1; e2; e3; e4; e5].
Proof. intros es r w x y H. destruct es as [|e0 [|e1 [|e2 [|e3 [|e4 [|e5 [|]]]]]]]; cbn in H; try contradiction. do 6 eexists; reflexivity. Qed.
Lemma back : forall p q f, poe_ok p -> evaluate (reverseSelf p) (rev_neg q) = Some f -> exists f', evaluate p q = Some f' /\ f = finv f' .
Proof.
  intros p q f OK H.
  assert (L : length q = length (exps p)).
  { unfold evaluate in H. destruct (Nat.eqb _ _) eqn:E in H; [|discriminate]. apply Nat.eqb_eq in E. unfold reverseSelf in E. cbn [exps] in E.
    unfold rev_neg in E. rewrite !rev_length, !map_length in E. auto. }
  rewrite evaluate_some by exact L. eexists. split; [reflexivity|].
  pose proof (fk_reverse p q _ OK (evaluate_some p q L)) as E. rewrite H in E. congruence.
Qed.
Section Built.
Variables (fuel : nat) (draws : list R) (p p' : poe) (ss : list sub) (rev : bool) (r w x y : vec) (target : frame).
Hypothesis (POK : poe_ok p) (BD : build fuel draws p = Returns (Some (p', ss, rev)))
  (WA : wrist_arm (exps p') r w x y) (SS : ss = wrist_steps (exps p') r w x y).
Lemma built_ok : poe_ok p' /\ p' = if rev then reverseSelf p else p.
Proof.
  destruct (build_complete_drawn _ _ _ _ _ _ BD) as (E & _). split; [|exact E].
  rewrite E. destruct rev; [now apply ok_reverse|exact POK].
Qed.
Lemma built_sound : forall cands q, rigid target ->
  ik_solve p' (map sub_step ss) rev target = Some (true, cands) -> In q cands ->
  exists f, evaluate p q = Some f /\ rigid f /\ forall a b c,
    let z := combination w (vsub x w) (vsub y w) a b c in
    dist (carried p' (if rev then finv f else f) z) (carried p' (if rev then finv target else target) z) <= wrist_bound (exps p') r w x y a b c.
Proof.
  intros cands q RT SV I. destruct built_ok as [OK E]. destruct (six _ _ _ _ _ WA) as (e0 & e1 & e2 & e3 & e4 & e5 & EE).
  assert (EP : p' = P [e0; e1; e2; e3; e4; e5] (tool p')) by (rewrite <- EE; now destruct p').
  set (T := tool p') in EP. clearbody T. clear EE. rewrite SS in SV. clear SS BD ss draws fuel. rewrite EP in *. clear p' EP.
  destruct (wrist_sound e0 e1 e2 e3 e4 e5 T r w x y rev target OK WA cands q RT SV I) as (f & EV & RF & B).
  assert (X : exists f', evaluate p q = Some f' /\ rigid f' /\ f = if rev then finv f' else f').
  { clear B SV. destruct rev.
    - rewrite E in EV. destruct (back p q f POK EV) as (f' & A1 & A2). exists f'. split; [exact A1|]. split; [|exact A2].
      assert (L : length q = length (exps p)).
      { unfold evaluate in A1. destruct (Nat.eqb _ _) eqn:E' in A1; [|discriminate]. apply Nat.eqb_eq in E'. auto. }
      rewrite evaluate_some in A1 by exact L. apply (f_equal (fun o => match o with Some z => z | None => fid end)) in A1. rewrite <- A1.
      destruct POK as [U RP]. apply rigid_mul; [now apply eval_terms_rigid|exact RP].
    - rewrite E in EV. exists f. auto. }
  destruct X as (f' & A1 & A2 & ->). exists f'. split; [exact A1|]. split; [exact A2|]. exact B.
Qed.
Lemma built_defined : exists flag cands, ik_solve p' (map sub_step ss) rev target = Some (flag, cands).
Proof.
  destruct built_ok as [OK E]. destruct (six _ _ _ _ _ WA) as (e0 & e1 & e2 & e3 & e4 & e5 & EE).
  assert (EP : p' = P [e0; e1; e2; e3; e4; e5] (tool p')) by (rewrite <- EE; now destruct p').
  set (T := tool p') in EP. clearbody T. clear EE. rewrite SS. clear SS BD ss draws fuel E. rewrite EP in *. clear p' EP.
  exact (wrist_defined e0 e1 e2 e3 e4 e5 T r w x y rev target OK WA).
Qed.
Lemma built_found : forall q, evaluate p q = Some target -> regular (exps p') r w x (if rev then rev_neg q else q) ->
  exists flag cands, ik_solve p' (map sub_step ss) rev target = Some (flag, cands) /\ In q cands.
Proof.
  intros q EV RG. destruct built_ok as [OK E]. destruct (six _ _ _ _ _ WA) as (e0 & e1 & e2 & e3 & e4 & e5 & EE).
  assert (EV' : evaluate p' (if rev then rev_neg q else q) = Some (if rev then finv target else target)).
  { rewrite E. destruct rev; [now apply fk_reverse|exact EV]. }
  remember (if rev then rev_neg q else q) as th eqn:TH.
  assert (X : exists t0 t1 t2 t3 t4 t5, th = [t0; t1; t2; t3; t4; t5]).
  { rewrite EE in RG. destruct th as [|t0 [|t1 [|t2 [|t3 [|t4 [|t5 [|]]]]]]]; cbn in RG; try contradiction. do 6 eexists; reflexivity. }
  destruct X as (t0 & t1 & t2 & t3 & t4 & t5 & Eth). rewrite Eth in *.
  assert (EP : p' = P [e0; e1; e2; e3; e4; e5] (tool p')) by (rewrite <- EE; now destruct p').
  set (T := tool p') in EP. clearbody T. clear EE. rewrite SS. clear SS BD ss draws fuel E EV POK p. rewrite EP in *. clear p' EP.
  exact (wrist_found e0 e1 e2 e3 e4 e5 T r w x y rev target OK WA t0 t1 t2 t3 t4 t5 q (eq_sym TH) EV' RG).
Qed.
End Built.
