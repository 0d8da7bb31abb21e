(** The cycles of the example. *)
From Coq Require Import Reals Lra List Bool Lia Arith.
From Verif Require Import Kdl KdlFacts KdlRot KdlRotFacts Screw ScrewFacts Subproblems IkProblem IkSpec IkProblemFacts IkProblemFacts2 Selector SelectorFacts Builder BuilderSpec BuilderFacts BuilderFacts3
  KinRep KdlSolverFacts IkPoseSpec IkPoseFacts2 IkPoseFacts3 IkPoseFacts4 SolverLoopFacts IkRangeFacts IkRangeFacts2 Follow FollowSpec FollowFacts.
Import ListNotations.
Open Scope R_scope.
Local Notation S := Datatypes.S.

(** *** the arm *)
Definition R0 : mat := M 0 1 0 0 0 1 1 0 0.
Lemma base_rot : arm_base = F R0 (V 0 (34692 / 100000) (4982 / 10000)).
Proof.
  unfold arm_base, R0. f_equal.
  - unfold RotX, RotY. replace (- PI / 2) with (- (PI / 2)) by field. rewrite sin_neg, cos_neg, sin_PI2, cos_PI2. apply mat_eq; cbn; ring.
  - f_equal. field.
Qed.
Definition shoulder : vec := V 0 (34692 / 100000) (4982 / 10000).
Definition elbow : vec := V 0 (34692 / 100000) (16919 / 100000).
Definition wrist : vec := V 0 (34692 / 100000) (- (4581 / 100000)).
Lemma left_arm_eq : left_arm =
  P [E ROTATION (V 0 1 0) shoulder; E ROTATION (V 1 0 0) shoulder; E ROTATION (V 0 0 1) shoulder; E ROTATION (V 0 1 0) elbow; E ROTATION (V 0 0 1) elbow; E ROTATION (V 0 1 0) wrist]
    (F R0 (V 0 (34692 / 100000) (- (13581 / 100000)))).
Proof.
  unfold left_arm. rewrite base_rot. unfold changeBaseFrame, append_exp, mk_poe, mk_exp, arm_tool, cloneWithBase. cbn [exps tool app map].
  assert (NX : normalize (V 1 0 0) = V 1 0 0) by (apply normalize_of_unit; unfold unit, dot; cbn; ring).
  assert (NY : normalize (V 0 1 0) = V 0 1 0) by (apply normalize_of_unit; unfold unit, dot; cbn; ring).
  assert (NZ : normalize (V 0 0 1) = V 0 0 1) by (apply normalize_of_unit; unfold unit, dot; cbn; ring).
  rewrite NX, NY, NZ. unfold changeBase, fapp, fmul. cbn [e_motion e_axis e_origin fM fp].
  assert (EX : forall a b o o', a = b -> o = o' -> E ROTATION a o = E ROTATION b o') by (intros; subst; reflexivity).
  unfold shoulder, elbow, wrist, R0, fid, vzero, mid. f_equal.
  - repeat (apply (f_equal2 cons); [apply EX; apply vec_eq; cbn; field|]). reflexivity.
  - f_equal; [apply mat_eq; cbn; ring|apply vec_eq; cbn; field].
Qed.
Lemma left_six : length (exps left_arm) = 6%nat.
Proof. rewrite left_arm_eq. reflexivity. Qed.
Lemma left_ok : poe_ok left_arm.
Proof.
  rewrite left_arm_eq. split.
  - cbn [exps]. repeat constructor; unfold unit, dot; cbn; ring.
  - unfold rigid, rotation_matrix. cbn [tool fM]. split; [apply mat_eq; cbn; ring|unfold det; cbn; ring].
Qed.
Lemma left_rotates i e : nth_error (exps left_arm) i = Some e -> e_motion e = ROTATION.
Proof. rewrite left_arm_eq. cbn [exps]. do 6 (destruct i as [|i]; [cbn; intro H; injection H as <-; reflexivity|]). destruct i; discriminate. Qed.
Lemma start_rigid q f : evaluate left_arm q = Some f -> rigid f.
Proof.
  intro H. destruct left_ok as [A B]. unfold evaluate in H. destruct (Nat.eqb _ _); [|discriminate]. injection H as <-. apply rigid_mul; [apply eval_terms_rigid; exact A|exact B].
Qed.

(** *** what the preparation leaves *)
Lemma limits_spec limits js lo hi : all_limits limits js = Some (lo, hi) -> length lo = length js /\ length hi = length js /\
  forall i j, nth_error js i = Some j -> exists l h, limits j = Some (l, h) /\ nth_error lo i = Some l /\ nth_error hi i = Some h.
Proof.
  revert lo hi. induction js as [|j js IH]; cbn [all_limits]; intros lo hi H.
  - injection H as <- <-. split; [reflexivity|]. split; [reflexivity|]. intros [|i] j; discriminate.
  - destruct (limits j) as [[l h]|] eqn:L; [|discriminate]. destruct (all_limits limits js) as [[los his]|]; [|discriminate]. injection H as <- <-.
    destruct (IH los his eq_refl) as (A & B & C). cbn [length]. rewrite A, B. split; [reflexivity|]. split; [reflexivity|].
    intros [|i] j' N; cbn in N; [injection N as <-; exists l, h; auto|]. exact (C i j' N).
Qed.
Lemma prepared fuel draws q limits ok f : prepare fuel draws q limits ok = Returns (Some f) ->
  length q = 6%nat /\ fo_axes f = 6%nat /\ evaluate left_arm (map degToRad q) = Some (fo_start f) /\
  build fuel draws left_arm = Returns (Some (fo_poe f, fo_steps f, fo_rev f)) /\
  exists lo hi, fo_sel f = new_selector lo hi /\ all_limits limits (seq 0 6) = Some (lo, hi).
Proof.
  unfold prepare. rewrite left_six. destruct (Nat.ltb (length q) 6) eqn:L1; [discriminate|]. apply Nat.ltb_ge in L1.
  destruct (evaluate _ _) as [st|] eqn:EV; [|discriminate]. destruct (build _ _ _) as [[[[p ss] rv]|]| |] eqn:B; try discriminate.
  destruct (all_limits limits (seq 0 6)) as [[lo hi]|] eqn:AL; [|discriminate]. destruct (Nat.ltb 6 (length q)) eqn:L2; [discriminate|]. apply Nat.ltb_ge in L2.
  destruct ok; [|discriminate]. intro H. assert (f = Fo p ss rv (new_selector lo hi) st (length q)) as -> by congruence. cbn.
  assert (LQ : length q = 6%nat) by lia. rewrite <- LQ, firstn_all in EV. rewrite EV. repeat match goal with |- _ /\ _ => split end; auto. exists lo, hi. auto.
Qed.

(** *** one cycle *)
Section Cycles.
Variables (fuel : nat) (draws : list R) (p' : poe) (ss : list sub) (rv : bool) (r w x y : vec) (qMin qMax : list R) (start : frame) (maxVel duration : R).
Hypotheses (BD : build fuel draws left_arm = Returns (Some (p', ss, rv))) (WA : wrist_arm (exps p') r w x y) (WS : ss = wrist_steps (exps p') r w x y)
  (LM : length qMin = 6%nat) (LX : length qMax = 6%nat) (RS : rigid start) (PV : 0 < maxVel) (PD : 0 < duration).

Lemma solved target : exists exact cands, ik_solve p' (map sub_step ss) rv target = Some (exact, cands) /\ length cands = 8%nat /\
  forall q, In q cands -> length q = 6%nat /\ forall v, In v q -> - PI <= v <= PI.
Proof.
  destruct (built_defined fuel draws left_arm p' ss rv r w x y target left_ok BD WA WS) as (exact & cands & SV). exists exact, cands. split; [exact SV|]. split.
  - destruct (built_ok _ _ _ _ _ _ left_ok BD) as [PK _]. destruct (six _ _ _ _ _ WA) as (e0 & e1 & e2 & e3 & e4 & e5 & EE).
    rewrite WS, EE in SV.
    assert (EM : map sub_step (wrist_steps [e0; e1; e2; e3; e4; e5] r w x y) = map fst (problem_steps (wrist_steps [e0; e1; e2; e3; e4; e5] r w x y))) by (unfold problem_steps; now rewrite map_map).
    rewrite EM in SV.
    destruct (IkProblemFacts2.solve_spec p' rv target PK (problem_steps (wrist_steps [e0; e1; e2; e3; e4; e5] r w x y)) exact cands) as (A & _).
    + rewrite EE. exact (wrist_steps_ok e0 e1 e2 e3 e4 e5 (tool p') r w x y).
    + discriminate.
    + exact SV.
    + exact A.
  - intros q I. destruct (built_range _ _ _ _ _ _ _ _ _ _ left_ok BD SV I) as [L B]. rewrite left_six in L. split; [exact L|].
    intros v J. apply In_nth_error in J. destruct J as (i & J).
    assert (LT : (i < length (exps left_arm))%nat) by (rewrite left_six, <- L; apply nth_error_Some; congruence).
    destruct (nth_error (exps left_arm) i) as [e|] eqn:N; [|apply nth_error_None in N; lia]. exact (B i e v N (left_rotates i e N) J).
Qed.

Definition state_ok (f : follower) : Prop := fo_poe f = p' /\ fo_steps f = ss /\ fo_rev f = rv /\ fo_start f = start /\ fo_axes f = 6%nat /\
  s_min (fo_sel f) = qMin /\ s_max (fo_sel f) = qMax /\ match s_last (fo_sel f) with None => True | Some i => (i < 8)%nat end.

Lemma one_cycle f t reading : state_ok f -> (forall q, reading = Some q -> length q = 6%nat) ->
  exists rep f' target exact cands, cycle maxVel duration f t reading = Some (rep, f') /\ state_ok f' /\
    along start maxVel duration t = Some target /\ ik_solve p' (map sub_step ss) rv target = Some (exact, cands) /\ warned rep = negb exact /\
    (forall refs, sent rep = Some refs -> exists q, In q cands /\ refs = map radToDeg q /\ within qMin qMax q) /\
    (forall g, reading = Some g -> (forall q, In q cands -> within qMin qMax q) -> exists refs, sent rep = Some refs).
Proof.
  intros (E1 & E2 & E3 & E4 & E5 & E6 & E7 & E8) LR. unfold cycle.
  destruct (the_line start maxVel duration RS PV PD) as (rr & LI & _). rewrite E1, E2, E3, E4, E5. set (target := on_line start (rr t)). rewrite LI. fold target.
  destruct (solved target) as (exact & cands & SV & L8 & RG). rewrite SV.
  assert (SC : forall q, In q cands -> length q = length qMin /\ length q = length qMax) by (intros q I; destruct (RG q I) as [-> _]; rewrite LM, LX; auto).
  destruct (build_spec qMin qMax cands SC) as (l & BC & F2). unfold configure. rewrite E6, E7, BC.
  assert (LL : length l = 8%nat) by (rewrite <- L8; clear - F2; induction F2; cbn; congruence).
  assert (LQ : forall c, In c l -> length (c_q c) = 6%nat /\ In (c_q c) cands /\ (c_valid c = true <-> within qMin qMax (c_q c))).
  { intros c I. destruct (build_in _ _ _ _ BC c I) as [IC VC]. split; [apply RG, IC|]. split; [exact IC|].
    destruct (validate_spec (c_q c) qMin qMax) as (b & EB & BB); [apply SC, IC|apply SC, IC|]. rewrite VC in EB. injection EB as ->. exact BB. }
  assert (OKs : forall s', s_min s' = qMin -> s_max s' = qMax -> match s_last s' with None => True | Some i => (i < 8)%nat end -> state_ok (with_sel f s')).
  { intros s' A B C. unfold state_ok, with_sel. cbn. rewrite E1, E2, E3, E4, E5. repeat match goal with |- _ /\ _ => split end; auto. }
  set (s1 := Sel qMin qMax l (s_optimal (fo_sel f)) (s_last (fo_sel f))).
  assert (SOME : forall g, reading = Some g -> (forall q, In q cands -> within qMin qMax q) -> existsb c_valid l = true).
  { intros g _ WI. destruct l as [|c l']; [discriminate|]. cbn [existsb]. destruct (LQ c (or_introl eq_refl)) as (_ & IC & V). rewrite (proj2 V (WI _ IC)). reflexivity. }
  destruct (existsb c_valid l) eqn:EX.
  2:{ exists (Rep (negb exact) None), (with_sel f s1), target, exact, cands. split; [reflexivity|]. split; [apply OKs; cbn; auto|].
      repeat match goal with |- _ /\ _ => split end; auto; cbn [sent]; [discriminate|]. intros g E WI. specialize (SOME g E WI). discriminate. }
  destruct reading as [g|].
  2:{ exists (Rep (negb exact) None), (with_sel f s1), target, exact, cands. split; [reflexivity|]. split; [apply OKs; cbn; auto|].
      repeat match goal with |- _ /\ _ => split end; auto; cbn [sent]; discriminate. }
  specialize (LR g eq_refl).
  assert (LG : forall c, In c l -> length (c_q c) = length (map degToRad g)) by (intros c I; rewrite map_length, LR; apply LQ, I).
  assert (FD : exists b s2, find_least s1 (map degToRad g) = Some (b, s2) /\ match s_last s2 with None => True | Some i => (i < 8)%nat end /\
     ((forall q, In q cands -> within qMin qMax q) -> b = true)).
  { destruct (s_last (fo_sel f)) as [i|] eqn:SL.
    - unfold find_least, s1. cbn [s_last s_configs s_min s_max]. destruct (nth_error l i) as [c|] eqn:N; [|apply nth_error_None in N; lia].
      destruct (c_valid c) eqn:VC; do 2 eexists; (split; [reflexivity|]); cbn [s_last]; (split; [exact E8|]); [reflexivity|].
      intro WI. destruct (LQ c (nth_error_In _ _ N)) as (_ & IC & V). rewrite (proj2 V (WI _ IC)) in VC. discriminate.
    - destruct (SelectorFacts.find_first s1 (map degToRad g) eq_refl LG) as [[N Z]|(i & c & C & V & Z & _)].
      + exists false, s1. split; [exact Z|]. split; [exact I|]. intros _. exfalso. apply existsb_exists in EX. destruct EX as (c & IC & VC). rewrite (N c IC) in VC. discriminate.
      + do 2 eexists. split; [exact Z|]. cbn [s_last]. split; [|reflexivity]. rewrite <- LL. apply nth_error_Some. cbn [s1 s_configs] in C. congruence. }
  destruct FD as (b & s2 & FL & LS & BW). rewrite FL.
  destruct (find_limits find_least s1 (map degToRad g) b s2 (or_introl eq_refl) FL) as [MI MA]. cbn [s1 s_min s_max] in MI, MA.
  destruct b.
  - destruct (least_valid _ _ _ FL) as (c & IC & VC & RP). rewrite RP. cbn [s1 s_configs] in IC. destruct (LQ c IC) as (L6 & ICC & V). rewrite L6. cbn [Nat.ltb Nat.leb].
    exists (Rep (negb exact) (Some (map radToDeg (c_q c)))), (with_sel f s2), target, exact, cands. split; [reflexivity|]. split; [apply OKs; auto|].
    repeat match goal with |- _ /\ _ => split end; auto; cbn [sent].
    + intros refs E. injection E as <-. exists (c_q c). split; [exact ICC|]. split; [reflexivity|]. apply V, VC.
    + intros. eexists. reflexivity.
  - exists (Rep (negb exact) None), (with_sel f s2), target, exact, cands. split; [reflexivity|]. split; [apply OKs; auto|].
    repeat match goal with |- _ /\ _ => split end; auto; cbn [sent]; [discriminate|]. intros g' _ WI. specialize (BW WI). discriminate.
Qed.

(** *** the whole run *)
Definition cycle_facts (lo hi : list R) (f : follower) (t : R) (reading : option (list R)) (rep : report) : Prop := exists target exact cands,
  along (fo_start f) maxVel duration t = Some target /\ ik_solve (fo_poe f) (map sub_step (fo_steps f)) (fo_rev f) target = Some (exact, cands) /\ warned rep = negb exact /\
  (forall q, In q cands -> length q = 6%nat /\ forall v, In v q -> - PI <= v <= PI) /\ (exists q, In q cands) /\
  (forall refs, sent rep = Some refs -> exists q, In q cands /\ refs = map radToDeg q /\ within lo hi q) /\
  (forall g, reading = Some g -> (forall q, In q cands -> within lo hi q) -> exists refs, sent rep = Some refs).
Lemma all_cycles f0 : state_ok f0 -> forall ins f, state_ok f -> six_values ins -> exists out, cycles maxVel duration f ins = Some out /\ length out = length ins /\
  forall k t reading, nth_error ins k = Some (t, reading) -> exists rep, nth_error out k = Some (t, rep) /\ cycle_facts qMin qMax f0 t reading rep.
Proof.
  intros (Z1 & Z2 & Z3 & Z4 & _).
  induction ins as [|[t reading] ins IH]; intros f OK SX; cbn [cycles].
  - exists []. split; [reflexivity|]. split; [reflexivity|]. intros [|k] t rd; discriminate.
  - destruct (one_cycle f t reading OK) as (rep & f' & target & exact & cands & C & OK' & A1 & A2 & A3 & A4 & A5); [intros q ->; exact (SX t q (or_introl eq_refl))|].
    rewrite C. destruct (IH f' OK') as (out & -> & LE & A); [intros u q I; exact (SX u q (or_intror I))|]. exists ((t, rep) :: out). split; [reflexivity|].
    split; [cbn [length]; congruence|]. intros [|k] u rd; cbn [nth_error]; [|exact (A k u rd)]. intro E. injection E as <- <-. exists rep. split; [reflexivity|].
    exists target, exact, cands. rewrite Z1, Z2, Z3, Z4. destruct (solved target) as (ex & cs & S1 & L8 & S2). assert (cs = cands) as -> by congruence.
    repeat match goal with |- _ /\ _ => split end; auto. destruct cands as [|q cs']; [discriminate|]. exists q. left. reflexivity.
Qed.
End Cycles.

(** from the preparation on *)
Lemma run_facts fuel draws q limits ok f r w x y maxVel duration ins : prepare fuel draws q limits ok = Returns (Some f) -> wrist_follower f r w x y -> 0 < maxVel -> 0 < duration -> six_values ins ->
  exists lo hi out, all_limits limits (seq 0 6) = Some (lo, hi) /\ cycles maxVel duration f ins = Some out /\ length out = length ins /\
  forall k t reading, nth_error ins k = Some (t, reading) -> exists rep, nth_error out k = Some (t, rep) /\ cycle_facts maxVel duration lo hi f t reading rep.
Proof.
  intros PR [WA WS] PV PD SX. destruct (prepared _ _ _ _ _ _ PR) as (_ & AX & EV & BD & lo & hi & SE & AL).
  destruct (limits_spec _ _ _ _ AL) as (L1 & L2 & _). rewrite seq_length in L1, L2.
  pose proof (start_rigid _ _ EV) as RS.
  assert (OK : state_ok (fo_poe f) (fo_steps f) (fo_rev f) lo hi (fo_start f) f) by (unfold state_ok; rewrite SE; cbn; auto 10).
  destruct (all_cycles fuel draws (fo_poe f) (fo_steps f) (fo_rev f) r w x y lo hi (fo_start f) maxVel duration BD WA WS L1 L2 RS PV PD f OK ins f OK SX) as (out & C & H).
  exists lo, hi, out. auto.
Qed.
