(** The candidates of the problems that the builder returns for arms with a sliding joint. *)
From Coq Require Import Reals Lra List Bool Lia Arith.
From Verif Require Import Kdl KdlFacts Screw ScrewFacts Trig Subproblems SubproblemSpec2
  IkProblem IkSpec Builder BuilderSpec BuilderFacts BuilderFacts2 BuilderFacts3 IkPoseSpec IkPoseFacts IkPoseFacts2 IkPoseFacts3 IkPoseFacts4
  SlideSpec SlideFacts SlideFacts2 SlideFacts3.
Import ListNotations.
Open Scope R_scope.
Local Notation S := Datatypes.S.

Lemma forth : forall p p' (rev : bool) q f, poe_ok p -> p' = (if rev then reverseSelf p else p) ->
  evaluate p' (if rev then rev_neg q else q) = Some f -> exists f', evaluate p q = Some f' /\ rigid f' /\ f = if rev then finv f' else f'.
Proof.
  intros p p' rev q f POK E EV.
  assert (X : exists f', evaluate p q = Some f' /\ f = if rev then finv f' else f').
  { rewrite E in EV. destruct rev; [now apply back|eauto]. }
  destruct X as (f' & A1 & A2). exists f'. split; [exact A1|]. split; [|exact A2].
  assert (L : length q = length (exps p)).
  { unfold evaluate in A1. destruct (Nat.eqb _ _) eqn:E' in A1; [|discriminate]. apply Nat.eqb_eq in E'. auto. }
  rewrite evaluate_some in A1 by exact L. apply (f_equal (fun o => match o with Some z => z | None => fid end)) in A1. rewrite <- A1.
  destruct POK as [U RP]. apply rigid_mul; [now apply eval_terms_rigid|exact RP].
Qed.
Section Built.
Variables (fuel : nat) (draws : list R) (p p' : poe) (ss : list sub) (rev : bool) (target : frame).
Hypothesis (POK : poe_ok p) (BD : build fuel draws p = Returns (Some (p', ss, rev))).
Lemma slide_ok : poe_ok p' /\ p' = if rev then reverseSelf p else p.
Proof.
  destruct (build_complete_drawn _ _ _ _ _ _ BD) as (E & _). split; [|exact E].
  rewrite E. destruct rev; [now apply ok_reverse|exact POK].
Qed.

(** *** sliding arms *)
Section Sliding.
Variables (r w x y : vec).
Hypothesis (SA : sliding_arm (exps p') r w x y) (SS : ss = sliding_steps (exps p') r w x y).
Lemma sliding_terms : exists e0 e1 e2 e3 e4 e5, exps p' = [e0; e1; e2; e3; e4; e5].
Proof. clear SS. revert SA. generalize (exps p'). intros es H. destruct es as [|e0 [|e1 [|e2 [|e3 [|e4 [|e5 [|]]]]]]]; cbn in H; try contradiction. do 6 eexists; reflexivity. Qed.
Lemma sliding_built_sound : forall cands q, rigid target -> 
  ik_solve p' (map sub_step ss) rev target = Some (true, cands) -> In q cands ->
  exists f, evaluate p q = Some f /\ rigid f /\
    sliding_placed (exps p') r w x y (nth 2 (if rev then rev_neg q else q) 0) (carried p' (if rev then finv f else f)) (carried p' (if rev then finv target else target)).
Proof.
  intros cands q RT SV I. destruct slide_ok as [OK E]. destruct sliding_terms as (e0 & e1 & e2 & e3 & e4 & e5 & EE).
  assert (EP : p' = P [e0; e1; e2; e3; e4; e5] (tool p')) by (rewrite <- EE; now destruct p').
  set (T := tool p') in EP. assert (ET : tool p' = T) by reflexivity. clearbody T. clear EE. rewrite SS in SV. clear SS BD ss draws fuel. rewrite EP in *. clear p' EP ET.
  destruct (sliding_sound e0 e1 e2 e3 e4 e5 T r w x y rev target OK SA cands q RT SV I) as (f & EV & RF & B).
  destruct (forth p _ rev q f POK E EV) as (f' & A1 & A2 & ->). exists f'. split; [exact A1|]. split; [exact A2|]. exact B.
Qed.
Lemma sliding_built_defined : exists flag cands, ik_solve p' (map sub_step ss) rev target = Some (flag, cands).
Proof.
  destruct slide_ok as [OK E]. destruct sliding_terms as (e0 & e1 & e2 & e3 & e4 & e5 & EE).
  assert (EP : p' = P [e0; e1; e2; e3; e4; e5] (tool p')) by (rewrite <- EE; now destruct p').
  set (T := tool p') in EP. clearbody T. clear EE. rewrite SS. clear SS BD ss draws fuel E. rewrite EP in *. clear p' EP.
  exact (sliding_defined e0 e1 e2 e3 e4 e5 T r w x y rev target OK SA).
Qed.
Lemma sliding_built_found : forall q, evaluate p q = Some target -> sliding_regular (exps p') r w x (if rev then rev_neg q else q) ->
  exists flag cands, ik_solve p' (map sub_step ss) rev target = Some (flag, cands) /\ In q cands.
Proof.
  intros q EV RG. destruct slide_ok as [OK E]. destruct sliding_terms as (e0 & e1 & e2 & e3 & e4 & e5 & EE).
  assert (EV' : evaluate p' (if rev then rev_neg q else q) = Some (if rev then finv target else target)).
  { rewrite E. destruct rev; [now apply fk_reverse|exact EV]. }
  remember (if rev then rev_neg q else q) as th eqn:TH.
  assert (X : exists t0 t1 t2 t3 t4 t5, th = [t0; t1; t2; t3; t4; t5]).
  { rewrite EE in RG. destruct th as [|t0 [|t1 [|t2 [|t3 [|t4 [|t5 [|]]]]]]]; cbn in RG; try contradiction. do 6 eexists; reflexivity. }
  destruct X as (t0 & t1 & t2 & t3 & t4 & t5 & Eth). rewrite Eth in *.
  assert (EP : p' = P [e0; e1; e2; e3; e4; e5] (tool p')) by (rewrite <- EE; now destruct p').
  set (T := tool p') in EP. clearbody T. clear EE. rewrite SS. clear SS BD ss draws fuel E EV POK p. rewrite EP in *. clear p' EP.
  exact (sliding_found e0 e1 e2 e3 e4 e5 T r w x y rev target OK SA t0 t1 t2 t3 t4 t5 q (eq_sym TH) EV' RG).
Qed.
End Sliding.

(** *** linear arms *)
Section Linear.
Variables (w x y : vec).
Hypothesis (SA : linear_arm (exps p') w x y) (SS : ss = linear_steps (exps p') w x y).
Lemma linear_terms : exists e0 e1 e2 e3 e4 e5, exps p' = [e0; e1; e2; e3; e4; e5].
Proof. clear SS. revert SA. generalize (exps p'). intros es H. destruct es as [|e0 [|e1 [|e2 [|e3 [|e4 [|e5 [|]]]]]]]; cbn in H; try contradiction. do 6 eexists; reflexivity. Qed.
Lemma linear_built_sound : forall cands q, rigid target -> pair_unfolded (exps p') w (carried p' (if rev then finv target else target) w) -> 
  ik_solve p' (map sub_step ss) rev target = Some (true, cands) -> In q cands ->
  exists f, evaluate p q = Some f /\ rigid f /\
    linear_placed (exps p') w x y (carried p' (if rev then finv target else target) w) (carried p' (if rev then finv f else f)) (carried p' (if rev then finv target else target)).
Proof.
  intros cands q RT UF SV I. destruct slide_ok as [OK E]. destruct linear_terms as (e0 & e1 & e2 & e3 & e4 & e5 & EE).
  assert (EP : p' = P [e0; e1; e2; e3; e4; e5] (tool p')) by (rewrite <- EE; now destruct p').
  set (T := tool p') in EP. assert (ET : tool p' = T) by reflexivity. clearbody T. clear EE. rewrite SS in SV. clear SS BD ss draws fuel. rewrite EP in *. clear p' EP ET.
  destruct (linear_sound e0 e1 e2 e3 e4 e5 T w x y rev target OK SA cands q RT UF SV I) as (f & EV & RF & B).
  destruct (forth p _ rev q f POK E EV) as (f' & A1 & A2 & ->). exists f'. split; [exact A1|]. split; [exact A2|]. exact B.
Qed.
Lemma linear_built_defined : exists flag cands, ik_solve p' (map sub_step ss) rev target = Some (flag, cands).
Proof.
  destruct slide_ok as [OK E]. destruct linear_terms as (e0 & e1 & e2 & e3 & e4 & e5 & EE).
  assert (EP : p' = P [e0; e1; e2; e3; e4; e5] (tool p')) by (rewrite <- EE; now destruct p').
  set (T := tool p') in EP. clearbody T. clear EE. rewrite SS. clear SS BD ss draws fuel E. rewrite EP in *. clear p' EP.
  exact (linear_defined e0 e1 e2 e3 e4 e5 T w x y rev target OK SA).
Qed.
Lemma linear_built_found : forall q, evaluate p q = Some target -> linear_regular (exps p') w x (if rev then rev_neg q else q) ->
  exists flag cands, ik_solve p' (map sub_step ss) rev target = Some (flag, cands) /\ In q cands.
Proof.
  intros q EV RG. destruct slide_ok as [OK E]. destruct linear_terms as (e0 & e1 & e2 & e3 & e4 & e5 & EE).
  assert (EV' : evaluate p' (if rev then rev_neg q else q) = Some (if rev then finv target else target)).
  { rewrite E. destruct rev; [now apply fk_reverse|exact EV]. }
  remember (if rev then rev_neg q else q) as th eqn:TH.
  assert (X : exists t0 t1 t2 t3 t4 t5, th = [t0; t1; t2; t3; t4; t5]).
  { rewrite EE in RG. destruct th as [|t0 [|t1 [|t2 [|t3 [|t4 [|t5 [|]]]]]]]; cbn in RG; try contradiction. do 6 eexists; reflexivity. }
  destruct X as (t0 & t1 & t2 & t3 & t4 & t5 & Eth). rewrite Eth in *.
  assert (EP : p' = P [e0; e1; e2; e3; e4; e5] (tool p')) by (rewrite <- EE; now destruct p').
  set (T := tool p') in EP. clearbody T. clear EE. rewrite SS. clear SS BD ss draws fuel E EV POK p. rewrite EP in *. clear p' EP.
  exact (linear_found e0 e1 e2 e3 e4 e5 T w x y rev target OK SA t0 t1 t2 t3 t4 t5 q (eq_sym TH) EV' RG).
Qed.
End Linear.

(** *** scara arms *)
Section Scara.
Variables (w y : vec).
Hypothesis (SA : scara_arm (exps p') w y) (SS : ss = scara_steps (exps p') w y).
Lemma scara_terms : exists e0 e1 e2 e3, exps p' = [e0; e1; e2; e3].
Proof. clear SS. revert SA. generalize (exps p'). intros es H. destruct es as [|e0 [|e1 [|e2 [|e3 [|]]]]]; cbn in H; try contradiction. do 4 eexists; reflexivity. Qed.
Lemma scara_built_sound : forall cands q, rigid target -> pair_unfolded (exps p') w (carried p' (if rev then finv target else target) w) ->
  upright (exps p') (fmul (if rev then finv target else target) (finv (tool p'))) -> 
  ik_solve p' (map sub_step ss) rev target = Some (true, cands) -> In q cands ->
  exists f, evaluate p q = Some f /\ rigid f /\
    scara_placed (exps p') w y (carried p' (if rev then finv target else target) w) (carried p' (if rev then finv f else f)) (carried p' (if rev then finv target else target)).
Proof.
  intros cands q RT UF UP SV I. destruct slide_ok as [OK E]. destruct scara_terms as (e0 & e1 & e2 & e3 & EE).
  assert (EP : p' = P [e0; e1; e2; e3] (tool p')) by (rewrite <- EE; now destruct p').
  set (T := tool p') in EP. assert (ET : tool p' = T) by reflexivity. clearbody T. clear EE. rewrite SS in SV. clear SS BD ss draws fuel. rewrite EP in *. clear p' EP ET.
  destruct (scara_sound e0 e1 e2 e3 T w y rev target OK SA cands q RT UF UP SV I) as (f & EV & RF & B).
  destruct (forth p _ rev q f POK E EV) as (f' & A1 & A2 & ->). exists f'. split; [exact A1|]. split; [exact A2|]. exact B.
Qed.
Lemma scara_built_defined : exists flag cands, ik_solve p' (map sub_step ss) rev target = Some (flag, cands).
Proof.
  destruct slide_ok as [OK E]. destruct scara_terms as (e0 & e1 & e2 & e3 & EE).
  assert (EP : p' = P [e0; e1; e2; e3] (tool p')) by (rewrite <- EE; now destruct p').
  set (T := tool p') in EP. clearbody T. clear EE. rewrite SS. clear SS BD ss draws fuel E. rewrite EP in *. clear p' EP.
  exact (scara_defined e0 e1 e2 e3 T w y rev target OK SA).
Qed.
Lemma scara_built_found : forall q, evaluate p q = Some target -> scara_regular (exps p') w (if rev then rev_neg q else q) ->
  exists flag cands, ik_solve p' (map sub_step ss) rev target = Some (flag, cands) /\ In q cands.
Proof.
  intros q EV RG. destruct slide_ok as [OK E]. destruct scara_terms as (e0 & e1 & e2 & e3 & EE).
  assert (EV' : evaluate p' (if rev then rev_neg q else q) = Some (if rev then finv target else target)).
  { rewrite E. destruct rev; [now apply fk_reverse|exact EV]. }
  remember (if rev then rev_neg q else q) as th eqn:TH.
  assert (X : exists t0 t1 t2 t3, th = [t0; t1; t2; t3]).
  { rewrite EE in RG. destruct th as [|t0 [|t1 [|t2 [|t3 [|]]]]]; cbn in RG; try contradiction. do 4 eexists; reflexivity. }
  destruct X as (t0 & t1 & t2 & t3 & Eth). rewrite Eth in *.
  assert (EP : p' = P [e0; e1; e2; e3] (tool p')) by (rewrite <- EE; now destruct p').
  set (T := tool p') in EP. clearbody T. clear EE. rewrite SS. clear SS BD ss draws fuel E EV POK p. rewrite EP in *. clear p' EP.
  exact (scara_found e0 e1 e2 e3 T w y rev target OK SA t0 t1 t2 t3 q (eq_sym TH) EV' RG).
Qed.
End Scara.
End Built.
