(** Proofs about the closed-form inverse kinematics: totality, marks, the library's steps. *)
From Coq Require Import Reals Lra List Bool Lia Arith.
From Verif Require Import Kdl KdlFacts Screw ScrewFacts Trig Subproblems IkProblem IkSpec IkProblemFacts IkProblemFacts2.
Import ListNotations.
Open Scope R_scope.
Local Notation S := Datatypes.S.

(** ** The library's subproblems respect the contract *)
Lemma pk1_ok : forall id e p, step_ok (pk1_step id e p) [id].
Proof.
  intros. split; [cbn; lia|]. split; [discriminate|]. intros rhs h flag locs H. cbn [st_solve pk1_step] in H. unfold pk1_solve in H.
  injection H as _ <-. split; auto. intros loc [<-|[]]. reflexivity.
Qed.
Lemma pk2_ok : forall id1 id2 e1 e2 p r, step_ok (pk2_step id1 id2 e1 e2 p r) [id1; id2].
Proof.
  intros. split; [cbn; lia|]. split; [discriminate|]. intros rhs h flag locs H. cbn [st_solve pk2_step] in H. unfold pk2_solve in H.
  unfold fdiv in H. destruct (Reqb _ 0); [discriminate|]. cbn [obind] in H.
  destruct (Reqb _ 0); [discriminate|]. cbn [obind] in H.
  match type of H with (if ?c then _ else _) = _ => destruct c end; injection H as _ <-; split; auto; intros loc [<-|[<-|[]]]; reflexivity.
Qed.
Lemma pk3_ok : forall id e p k, step_ok (pk3_step id e p k) [id].
Proof.
  intros. split; [cbn; lia|]. split; [discriminate|]. intros rhs h flag locs H. cbn [st_solve pk3_step] in H. unfold pk3_solve in H.
  unfold fdiv in H. destruct (Reqb _ 0); [discriminate|]. cbn [obind] in H.
  match type of H with (if ?c then _ else _) = _ => destruct c end; injection H as _ <-; split; auto; intros loc [<-|[<-|[]]]; reflexivity.
Qed.
Lemma pg1_ok : forall id e p, step_ok (pg1_step id e p) [id].
Proof.
  intros. split; [cbn; lia|]. split; [discriminate|]. intros rhs h flag locs H. cbn [st_solve pg1_step] in H. unfold pg1_solve in H.
  injection H as _ <-. split; auto. intros loc [<-|[]]. reflexivity.
Qed.
Lemma pg2_ok : forall id1 id2 e1 e2 p, step_ok (pg2_step id1 id2 e1 e2 p) [id1; id2].
Proof.
  intros. split; [cbn; lia|]. split; [discriminate|]. intros rhs h flag locs H. cbn [st_solve pg2_step] in H. unfold pg2_solve in H.
  unfold fdiv in H. destruct (Reqb _ 0); [discriminate|]. cbn [obind] in H.
  injection H as _ <-. split; auto. intros loc [<-|[]]. reflexivity.
Qed.
Lemma pg3_ok : forall id e p k, step_ok (pg3_step id e p k) [id].
Proof.
  intros. split; [cbn; lia|]. split; [discriminate|]. intros rhs h flag locs H. cbn [st_solve pg3_step] in H. unfold pg3_solve in H.
  match type of H with (if ?c then _ else _) = _ => destruct c end; injection H as _ <-; split; auto; intros loc [<-|[<-|[]]]; reflexivity.
Qed.
Lemma pg4_ok : forall id1 id2 e1 e2 p, step_ok (pg4_step id1 id2 e1 e2 p) [id1; id2].
Proof.
  intros. split; [cbn; lia|]. split; [discriminate|]. intros rhs h flag locs H. cbn [st_solve pg4_step] in H. unfold pg4_solve in H.
  match type of H with (if ?c then _ else _) = _ => destruct c end.
  - unfold fdiv in H. destruct (Reqb _ 0); [discriminate|]. cbn [obind] in H.
    destruct (Reqb _ 0); [discriminate|]. cbn [obind] in H.
    injection H as _ <-; split; auto; intros loc [<-|[<-|[]]]; reflexivity.
  - injection H as _ <-; split; auto; intros loc [<-|[<-|[]]]; reflexivity.
Qed.

Section Facts3.
Variable p : poe.
Variable reversed : bool.
Variable target : frame.
Local Notation es := (exps p).
Local Notation n := (length (exps p)).
Hypothesis POK : poe_ok p.

(** ** The algorithm finishes with a result whenever its steps do *)
Lemma step_total : forall ss s ids first st,
  inv p reversed target ss st -> step_ok s ids -> (forall i, In i ids -> (i < n)%nat /\ ~ In i (concat (map snd ss))) ->
  (forall s ids, In (s, ids) ss -> (1 <= st_count s)%nat) ->
  (first = true -> ss = []) -> (forall rhs h, st_solve s rhs h <> None) ->
  step_body es reversed first s st <> None.
Proof.
  intros ss s ids first st I SOK IDS POS FST SV. unfold step_body.
  destruct I as ((a0 & c0 & T & A0 & C0 & G) & LS & ZQ & _).
  set (K := concat (map snd ss)) in *.
  assert (ID0 : exists i, In i ids). { destruct SOK as (_ & NE & _). destruct ids; [congruence|]. eexists; left; eauto. }
  destruct ID0 as [i0 I0]. destruct (IDS i0 I0) as [I0n I0K].
  destruct (first_unknown_ex p K i0 I0n I0K) as (a & FU & _).
  assert (LA : (a0 <= a)%nat). { destruct FU as (_ & NA & _). destruct (Nat.le_gt_cases a0 a); auto. destruct NA. apply A0. auto. }
  assert (LQ : forall q, In q (k_sols st) -> length q = n) by (intros; apply ZQ; auto).
  assert (R : exists rhs ts, (if first then Some (k_rhs st, k_terms st) else recalculateFrames es reversed (k_sols st) (k_rhs st) (k_terms st)) = Some (rhs, ts) /\
    length ts = n /\ length rhs = length (k_sols st)).
  { destruct first.
    - exists (k_rhs st), (k_terms st). split; auto. split; [apply T | apply G].
    - destruct (recalc_spec p reversed target POK (k_sols st) LQ K a FU a0 c0 (k_terms st) (k_rhs st) LA T C0 G) as (rhs & ts & c & E & T' & C' & G').
      exists rhs, ts. split; auto. split; [apply T' | apply G']. }
  destruct R as (rhs & ts & -> & LT & LR).
  assert (NPOS : (0 < length (k_sols st))%nat). { rewrite LS. pose proof (paths_pos ss POS). lia. }
  assert (IDB : forall i, In i ids -> (i < n)%nat) by (intros; apply IDS; auto).
  eapply (loop_total p reversed s ids SOK IDB (k_sols st) rhs ts (k_reach st) NPOS LR LT LQ (length (k_sols st)) O); auto.
  - apply binv_start; auto.
  - intros. apply transform_total; auto.
Qed.
Lemma steps_total : forall ss ss0 first st,
  inv p reversed target ss0 st -> (forall s ids, In (s, ids) (ss0 ++ ss) -> step_ok s ids) ->
  NoDup (concat (map snd (ss0 ++ ss))) -> (forall i, In i (concat (map snd (ss0 ++ ss))) -> (i < n)%nat) ->
  (first = true -> ss0 = []) -> (forall s ids rhs h, In (s, ids) ss -> st_solve s rhs h <> None) ->
  steps_loop es reversed first (map fst ss) st <> None.
Proof.
  induction ss as [|[s ids] ss IH]; intros ss0 first st I SOK ND BD FST SV; cbn [map steps_loop fst]; [discriminate|].
  replace (ss0 ++ (s, ids) :: ss) with ((ss0 ++ [(s, ids)]) ++ ss) in * by (rewrite <- app_assoc; reflexivity).
  assert (S1 : step_ok s ids). { apply SOK. apply in_or_app. left. apply in_or_app. right. left. auto. }
  assert (D1 : forall i, In i ids -> (i < n)%nat /\ ~ In i (concat (map snd ss0))).
  { intros i Hi. rewrite !map_app, !concat_app in ND, BD. cbn in ND, BD. rewrite app_nil_r in ND, BD. split.
    * apply BD. apply in_or_app. left. apply in_or_app. right. auto.
    * intro X. rewrite <- app_assoc in ND. clear - ND X Hi. induction (concat (map snd ss0)) as [|x l IHl]; [destruct X|].
      cbn in ND. inversion_clear ND as [|? ? NI ND']. destruct X as [<-|X]; [|auto]. apply NI. apply in_or_app. right. apply in_or_app. left. auto. }
  assert (P1 : forall s ids, In (s, ids) ss0 -> (1 <= st_count s)%nat).
  { intros s1 ids1 I1. apply (SOK s1 ids1). apply in_or_app. left. apply in_or_app. left. auto. }
  destruct (step_body es reversed first s st) as [st1|] eqn:SB.
  - apply (IH (ss0 ++ [(s, ids)])); auto.
    + eapply step_inv; eauto.
    + discriminate.
    + intros s1 i1 r1 h1 I1. eapply SV. right. exact I1.
  - exfalso. eapply step_total; eauto. intros. eapply SV. left. reflexivity.
Qed.
Lemma solve_total : forall ss, steps_ok n ss -> (forall s ids rhs h, In (s, ids) ss -> st_solve s rhs h <> None) ->
  exists flag cands, ik_solve p (map fst ss) reversed target = Some (flag, cands).
Proof.
  intros ss (SOK & ND & BD) SV. unfold ik_solve.
  destruct (steps_loop (exps p) reversed true (map fst ss) (ik_init p reversed target)) as [st|] eqn:E; eauto.
  exfalso. eapply (steps_total ss []); eauto. apply inv_start; auto.
Qed.

(** ** When the extra marks do no harm *)
Lemma NoDup_app_inv : forall (l1 l2 : list nat), NoDup (l1 ++ l2) -> NoDup l1 /\ forall i, In i l2 -> ~ In i l1.
Proof.
  induction l1 as [|x l1 IH]; intros l2 H; cbn in *; [split; [constructor|auto]|].
  inversion_clear H as [|? ? NI ND]. destruct (IH _ ND) as [A B]. split.
  - constructor; auto. intro; apply NI, in_or_app; auto.
  - intros i Hi [<-|J]; [apply NI, in_or_app; auto | apply (B i); auto].
Qed.
Lemma steps_ok_app : forall ss s ids, steps_ok n (ss ++ [(s, ids)]) ->
  steps_ok n ss /\ step_ok s ids /\ forall i, In i ids -> (i < n)%nat /\ ~ In i (concat (map snd ss)).
Proof.
  intros ss s ids (A & B & C). rewrite map_app, concat_app in B, C. cbn in B, C. rewrite app_nil_r in B, C.
  destruct (NoDup_app_inv _ _ B) as [B1 B2]. split; [|split].
  - split; [|split; auto]. { intros; apply A, in_or_app; auto. } intros; apply C, in_or_app; auto.
  - apply A, in_or_app. right. left. auto.
  - intros i Hi. split; auto. apply C, in_or_app; auto.
Qed.
Lemma derived_zero : forall marks ss ks q ok, derived p reversed target marks ss ks q ok -> steps_ok n ss ->
  length q = n /\ forall i, (i < n)%nat -> ~ In i (concat (map snd ss)) -> nth (slot p reversed i) q 0 = 0.
Proof.
  intros marks ss ks q ok D. induction D as [|ss ks q ok s ids a b rhs h flag locs k loc D IH FU RE RH PO SV NT]; intros OK.
  - split; [apply repeat_length|]. intros. apply nth_repeat0.
  - destruct (steps_ok_app _ _ _ OK) as (OK1 & SO & DI). destruct (IH OK1) as [L Z].
    destruct SO as (_ & _ & CT). destruct (CT _ _ _ _ SV) as [_ LI]. assert (EL : map fst loc = ids) by (apply LI; eapply nth_error_In; eauto).
    split; [rewrite assign_length; auto|]. intros i Hi NI. rewrite map_app, concat_app in NI. cbn in NI. rewrite app_nil_r in NI.
    rewrite assign_other; auto.
    + apply Z; auto. intro; apply NI, in_or_app; auto.
    + rewrite EL. intros; apply DI; auto.
    + rewrite EL. intro; apply NI, in_or_app; auto.
Qed.
Lemma derived_first : forall marks ss ks q ok, derived p reversed target marks ss ks q ok -> steps_ok n ss -> paths ss = 1%nat ->
  forallb (Nat.eqb 0) ks = true.
Proof.
  intros marks ss ks q ok D. induction D as [|ss ks q ok s ids a b rhs h flag locs k loc D IH FU RE RH PO SV NT]; intros OK P1; auto.
  destruct (steps_ok_app _ _ _ OK) as (OK1 & SO & _). rewrite paths_app in P1. apply Nat.eq_mul_1 in P1 as [P0 P1].
  rewrite forallb_app, IH by auto. cbn [forallb andb]. destruct SO as (_ & _ & CT). destruct (CT _ _ _ _ SV) as [LL _].
  apply nth_error_lt in NT. replace k with O by lia. reflexivity.
Qed.

Lemma displ_zero : forall q i, (i < n)%nat -> nth (slot p reversed i) q 0 = 0 -> displ p reversed q i = fid.
Proof.
  intros q i Hi Z. unfold displ. rewrite Z. destruct POK as [F _]. rewrite Forall_forall in F.
  replace (if reversed then - 0 else 0) with 0 by (destruct reversed; ring). apply asFrame_0. apply F. apply nth_In. auto.
Qed.
Lemma product_fid : forall q len lo, (lo + len <= n)%nat -> (forall i, (lo <= i < lo + len)%nat -> nth (slot p reversed i) q 0 = 0) ->
  product p reversed q lo len = fid.
Proof.
  intros q. induction len as [|len IH]; intros lo L Z; [reflexivity|].
  rewrite product_cons, IH by (try lia; intros; apply Z; lia). rewrite displ_zero by (try lia; apply Z; lia). apply fmul_id_l.
Qed.

Lemma point_own : forall K ids q a b h l, (b <= n)%nat -> ~ In a K -> (forall i, In i ids -> ~ In i K) ->
  (forall i, In i ids -> nth (slot p reversed i) q 0 = 0) -> (forall i, In i ids <-> (a <= i < a + l)%nat) -> (0 < l)%nat ->
  point_of p reversed (K ++ ids) q a b h -> point_of p reversed K q a b h.
Proof.
  intros K ids q a b h l BN AK DJ Z RG LP [[-> N]|(lo & hi & H1 & H2 & U & KN & LO & ->)].
  - left. split; auto. intros i Hi X. apply (N i Hi). apply in_or_app; auto.
  - assert (NK : forall i, (a <= i < a + l)%nat -> ~ In i K) by (intros i Hi; apply DJ, RG; auto).
    assert (IN : forall i, ~ (a <= i < a + l)%nat -> In i (K ++ ids) -> In i K).
    { intros i Hi X. apply in_app_or in X as [X|X]; auto. apply RG in X. tauto. }
    destruct (Nat.lt_ge_cases lo (a + l)) as [C|C].
    + assert (lo = a).
      { destruct LO as [|LO]; auto. destruct (Nat.eq_dec lo a); auto. exfalso. apply LO. apply in_or_app. right. apply RG. lia. }
      subst lo. destruct (Nat.le_gt_cases hi (a + l)) as [D|D].
      * left. split.
        -- apply product_fid; [lia|]. intros i Hi. apply Z, RG. lia.
        -- intros i Hi X. destruct (Nat.lt_ge_cases i hi); [apply (NK i); auto; lia|]. apply (U i); [lia|]. apply in_or_app; auto.
      * right. exists (a + l)%nat, hi. split; [lia|]. split; auto. split; [|split; [|split]].
        -- intros i Hi X. apply (U i Hi). apply in_or_app; auto.
        -- intros i Hi. apply IN; [lia|]. apply KN. lia.
        -- right. apply NK. lia.
        -- replace (hi - a)%nat with (l + (hi - (a + l)))%nat by lia. rewrite product_app.
           rewrite (product_fid q l a) by (try lia; intros; apply Z, RG; auto). apply fmul_id_l.
    + right. exists lo, hi. split; auto. split; auto. split; [|split; [|split]]; auto.
      * intros i Hi X. apply (U i Hi). apply in_or_app; auto.
      * intros i Hi. apply IN; [lia|]. apply KN. auto.
      * destruct LO as [->|LO]; [lia|]. right. intro X. apply LO, in_or_app; auto.
Qed.

Lemma derived_own : forall ss ks q ok, derived p reversed target code_marks ss ks q ok -> steps_ok n ss -> in_order p ss ->
  derived p reversed target own_marks ss ks q ok.
Proof.
  intros ss ks q ok D. induction D as [|ss ks q ok s ids a b rhs h flag locs k loc D IH FU RE RH PO SV NT]; intros OK IO.
  - apply dv_start.
  - destruct (steps_ok_app _ _ _ OK) as (OK1 & SO & DI).
    assert (IO1 : in_order p ss).
    { intros ss0 s1 i1 ss1 E. apply (IO ss0 s1 i1 (ss1 ++ [(s, ids)])). rewrite E, <- app_assoc. reflexivity. }
    destruct (derived_zero _ _ _ _ _ D OK1) as [_ Z].
    eapply dv_step; eauto. unfold own_marks. unfold code_marks in PO.
    destruct (forallb (Nat.eqb 0) ks) eqn:F0; auto.
    destruct (IO ss s ids [] eq_refl) as [P1|RG].
    + rewrite (derived_first _ _ _ _ _ D OK1 P1) in F0. discriminate.
    + eapply (point_own _ ids q a b h (length ids)); eauto.
      * destruct RE as [[_ ->]|[_ ->]]; lia.
      * apply FU.
      * intros; apply DI; auto.
      * intros i Hi. apply Z; apply DI; auto.
      * destruct SO as (_ & NE & _). destruct ids; [congruence|cbn; lia].
Qed.

Lemma solve_own : forall ss flag cands, steps_ok n ss -> ss <> [] -> in_order p ss ->
  ik_solve p (map fst ss) reversed target = Some (flag, cands) ->
  exists bs, flag = forallb (fun b => b) bs /\ length bs = length cands /\
    forall c q, nth_error cands c = Some q -> derived p reversed target own_marks ss (choices ss c) q (nth c bs true).
Proof.
  intros ss flag cands OK NE IO H. destruct (solve_spec p reversed target POK ss flag cands OK NE H) as (_ & _ & bs & E & L & D).
  exists bs. repeat split; auto. intros c q N. apply derived_own; auto.
Qed.
End Facts3.

(** ** A candidate that does not satisfy its own step *)
Definition tx : mexp := E TRANSLATION (V 1 0 0) vzero.
Definition tx4 : poe := P [tx; tx; tx; tx] fid.
Definition marks_steps : list (step * list nat) :=
  [(pg3_step 1 tx vzero (V (-1) 0 0), [1%nat]); (pg1_step 3 tx vzero, [3%nat])].
Lemma tx_ok : poe_ok tx4.
Proof. split; [|apply rigid_id]. repeat constructor; apply unit_ex. Qed.
Lemma marks_ok : steps_ok 4 marks_steps.
Proof.
  split; [|split]; cbn.
  - intros s ids [H|[H|[]]]; injection H as <- <-; [apply pg3_ok | apply pg1_ok].
  - repeat constructor; cbn; lia.
  - lia.
Qed.
Lemma asFrame_tx : forall t, asFrame tx t = ftrans (V t 0 0).
Proof. intros. unfold asFrame, tx, ftrans. cbn [e_motion e_axis]. f_equal. vring. Qed.
Lemma norm_x : forall x, 0 <= x -> norm (V x 0 0) = x.
Proof. intros. unfold norm, dot; cbn [vx vy vz]. replace (x * x + 0 * 0 + 0 * 0) with (x * x) by ring. apply sqrt_square; auto. Qed.
Lemma fid_app0 : fapp fid vzero = vzero. Proof. apply fapp_id. Qed.
Lemma marks_step1 : pg3_solve 1 tx vzero (V (-1) 0 0) fid fid = Some (true, [[(1%nat, 0)]; [(1%nat, -2)]]).
Proof.
  unfold pg3_solve. rewrite fid_app0. cbn [e_axis tx].
  replace (vsub vzero (V (-1) 0 0)) with (V 1 0 0) by vring.
  replace (vsub (V (-1) 0 0) vzero) with (V (-1) 0 0) by vring.
  replace (norm (V (-1) 0 0)) with 1. 2:{ unfold norm, dot; cbn [vx vy vz]. replace (-1 * -1 + 0 * 0 + 0 * 0) with 1 by ring. symmetry. apply sqrt_1. }
  rewrite norm_x by lra. replace (dot (V 1 0 0) (V (-1) 0 0)) with (-1) by (unfold dot; cbn; ring).
  replace (pow2 (-1) - pow2 1 + pow2 1) with 1 by (unfold pow2; ring).
  replace (Equal 1 0) with false by (symmetry; apply Equal_false; unfold kdl_eps; rewrite Rabs_pos_eq; lra).
  replace (Rltb 0 1) with true by (symmetry; apply Rltb_true; lra). cbn [negb andb].
  rewrite Rabs_pos_eq by lra. rewrite sqrt_1.
  replace (-1 + 1) with 0 by ring. replace (-1 - 1) with (-2) by ring. reflexivity.
Qed.
Lemma pg1_tx : forall v, pg1_solve 3 tx vzero fid (ftrans (V v 0 0)) = Some (true, [[(3%nat, - v)]]).
Proof.
  intros. unfold pg1_solve. rewrite fid_app0. cbn [e_axis tx].
  replace (dot (V 1 0 0) (vsub vzero (fapp (ftrans (V v 0 0)) vzero))) with (- v); auto.
  unfold ftrans, fapp, mid; vring.
Qed.

Lemma marks_run : exists st1, step_body (exps tx4) false true (pg3_step 1 tx vzero (V (-1) 0 0)) (ik_init tx4 false fid) = Some st1 /\
  k_sols st1 = [[0; 0; 0; 0]; [0; -2; 0; 0]] /\ k_rhs st1 = [fid; fid] /\ k_terms st1 = [UNKNOWN; KNOWN; UNKNOWN; UNKNOWN] /\ k_reach st1 = true.
Proof.
  unfold ik_init, step_body. cbn [k_rhs k_terms k_sols k_reach length exps tx4 seq branch_loop tool].
  replace (fmul fid (finv fid)) with fid by (rewrite finv_id, fmul_id_l; auto).
  unfold branch_body. cbn [k_rhs k_terms k_sols k_reach nth_error repeat length].
  unfold transformPoint. cbn [length transform_loop nth_error st_solve pg3_step]. rewrite marks_step1.
  cbn. eexists. split; [reflexivity|]. cbn. auto.
Qed.
Lemma marks_result : ik_solve tx4 (map fst marks_steps) false fid = Some (true, [[0; 0; 0; 0]; [0; -2; 0; 0]]).
Proof.
  unfold ik_solve. cbn [map fst marks_steps steps_loop]. destruct marks_run as (st1 & -> & E1 & E2 & E3 & E4).
  unfold step_body. rewrite E1, E2, E3, E4. cbn [recalculateFrames recalc_dir recalc_loop length Nat.ltb Nat.leb nth_error Nat.sub repeat].
  cbn [seq length branch_loop]. unfold branch_body at 1. cbn [k_rhs k_terms k_sols k_reach nth_error].
  unfold transformPoint at 1. cbn [length transform_loop nth_error exps tx4 getTheta]. rewrite asFrame_tx.
  replace (fmul (ftrans (V 0 0 0)) fid) with (ftrans (V 0 0 0)) by (rewrite fmul_id_r; auto).
  cbn [st_solve pg1_step]. rewrite pg1_tx.
  cbn [length Nat.ltb Nat.leb store_all nth_error store upd k_rhs k_terms k_sols k_reach].
  unfold branch_body. cbn [k_rhs k_terms k_sols k_reach nth_error].
  unfold transformPoint. cbn [length transform_loop nth_error exps tx4 getTheta]. rewrite asFrame_tx.
  replace (fmul (ftrans (V 0 0 0)) fid) with (ftrans (V 0 0 0)) by (rewrite fmul_id_r; auto).
  cbn [st_solve pg1_step]. rewrite pg1_tx.
  cbn [length Nat.ltb Nat.leb store_all nth_error store upd k_rhs k_terms k_sols k_reach andb].
  replace (- 0) with 0 by ring. reflexivity.
Qed.

Lemma marks_bad : exists p ss target cands q f,
  poe_ok p /\ steps_ok (length (exps p)) ss /\ ss <> [] /\
  ik_solve p (map fst ss) false target = Some (true, cands) /\
  nth_error cands 1 = Some q /\
  (forall ks ok, ~ derived p false target own_marks ss ks q ok) /\
  evaluate p q = Some f /\ f <> target.
Proof.
  exists tx4, marks_steps, fid, [[0; 0; 0; 0]; [0; -2; 0; 0]], [0; -2; 0; 0], (ftrans (V (-2) 0 0)).
  split; [apply tx_ok|]. split; [apply marks_ok|]. split; [discriminate|]. split; [apply marks_result|]. split; [reflexivity|].
  split; [|split].
  - intros ks ok D. inversion D as [E|ss ks0 q ok0 s ids a b rhs h flag locs k loc D1 FU RE RH PO SV NT E1 E2 E3 E4].
    change marks_steps with ([(pg3_step 1 tx vzero (V (-1) 0 0), [1%nat])] ++ [(pg1_step 3 tx vzero, [3%nat])]) in E1.
    apply app_inj_tail in E1 as [E1 E1']. injection E1' as -> ->. subst ss. cbn [map snd concat app] in *.
    (* the frames *)
    assert (a = O). { destruct FU as (_ & _ & F3). destruct a; auto. destruct (F3 O) as [X|[]]; lia. }
    subst a. destruct RH as [[[X|[]] _]|[_ RH]]; [cbn in X; lia|].
    assert (HR : rhs = fid). { rewrite RH. unfold product, goal; cbn [seq fold_right]. cbn [tool tx4]. rewrite !finv_id, !fmul_id_l. reflexivity. }
    rewrite HR in SV.
    assert (B : b = 4%nat). { destruct RE as [[[X|[]] _]|[_ ->]]; [cbn in X; lia | reflexivity]. }
    subst b. unfold own_marks in PO.
    assert (HH : h = displ tx4 false q 1).
    { destruct PO as [[_ N]|(lo & hi & H1 & H2 & U & KN & LO & ->)].
      - exfalso. apply (N 1%nat); [lia|]. left. auto.
      - assert (hi = 2)%nat.
        { assert (In (hi - 1)%nat [1%nat]) as [X|[]] by (apply KN; lia). lia. }
        assert (In lo [1%nat]) as [X|[]] by (apply KN; lia). subst. cbn [Nat.sub]. unfold product; cbn [seq fold_right].
        apply fmul_id_r. }
    assert (H1 : h = ftrans (V (nth 1 q 0) 0 0)). { rewrite HH. unfold displ, slot. cbn [exps tx4 nth]. apply asFrame_tx. }
    rewrite H1 in SV. cbn [st_solve pg1_step] in SV. rewrite pg1_tx in SV. injection SV as <- <-.
    destruct k as [|k]; [|destruct k; discriminate]. injection NT as <-.
    assert (LQ : length q = 4%nat).
    { apply (derived_zero tx4 false fid own_marks _ _ _ _ D1). split; [|split]; cbn.
      - intros s ids [H|[]]. injection H as <- <-. apply pg3_ok.
      - repeat constructor; cbn; lia.
      - lia. }
    destruct q as [|x0 [|x1 [|x2 [|x3 [|]]]]]; try discriminate. cbn in E3. injection E3 as _ E _ E'. lra.
  - unfold evaluate. cbn [exps tx4 length Nat.eqb tool]. f_equal. unfold eval_terms. cbn [combine fold_left fst snd].
    rewrite !asFrame_tx, fmul_id_l, fmul_id_r, !ftrans_mul. f_equal. vring.
  - intro E. apply (f_equal (fun f => vx (fp f))) in E. cbn in E. lra.
Qed.

(** ** Every path is taken *)
Lemma choices_onto : forall ss ks, Forall2 (fun (s : step * list nat) k => (k < st_count (fst s))%nat) ss ks ->
  exists c, (c < paths ss)%nat /\ choices ss c = ks.
Proof.
  induction 1 as [|[s ids] k ss ks K _ (c & L & E)]; [exists O; cbn; auto|].
  cbn [fst] in K. exists (k + st_count s * c)%nat. cbn [paths fold_right fst choices]. fold (paths ss). split; [nia|].
  rewrite (Nat.mul_comm (st_count s)), Nat.mod_add, Nat.mod_small, Nat.div_add, Nat.div_small by lia. rewrite Nat.add_0_l, E. reflexivity.
Qed.
Lemma computeSolutions_paths : forall ss, ss <> [] -> computeSolutions (map fst ss) = paths ss.
Proof.
  intros ss NE. destruct ss as [|x ss]; [congruence|]. unfold computeSolutions. cbn [map]. rewrite <- map_cons, count_paths. lia.
Qed.

(** ** Examples *)
Definition order_steps : list (step * list nat) :=
  [(pg3_step 0 tx vzero (V (-1) 0 0), [0%nat]); (pg1_step 1 tx vzero, [1%nat])].
Lemma order_ok : steps_ok 4 order_steps.
Proof.
  split; [|split]; cbn.
  - intros s ids [H|[H|[]]]; injection H as <- <-; [apply pg3_ok | apply pg1_ok].
  - repeat constructor; cbn; lia.
  - lia.
Qed.
Lemma order_in : in_order tx4 order_steps.
Proof.
  intros ss0 s ids ss1 E. destruct ss0 as [|s0 [|s1 [|]]]; cbn in E; try discriminate.
  - left. reflexivity.
  - injection E as <- <- <- _. right. cbn. intros a (A1 & A2 & A3) i.
    assert (a = 1%nat).
    { destruct (Nat.lt_trichotomy a 1) as [L|[L|L]]; auto; exfalso.
      - apply A2. left. lia.
      - destruct (A3 1%nat L) as [X|[]]. discriminate X. }
    subst a. split; [intros [<-|[]]; cbn; lia | cbn; intros; left; lia].
Qed.
Lemma order_defined : forall s ids rhs h, In (s, ids) order_steps -> st_solve s rhs h <> None.
Proof.
  intros s ids rhs h [H|[H|[]]]; injection H as <- <-; cbn [st_solve pg3_step pg1_step]; [|discriminate].
  unfold pg3_solve. match goal with |- (if ?c then _ else _) <> _ => destruct c end; discriminate.
Qed.
