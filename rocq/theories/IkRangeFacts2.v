(** The angles answered by the solver device. *)
From Coq Require Import ZArith QArith Reals Qreals Lra List Bool Lia Arith.
From Verif Require Import Kdl KdlFacts KdlRot KdlRotFacts Screw ScrewFacts Subproblems IkProblem IkSpec IkProblemFacts3 Selector SelectorFacts Builder BuilderSpec BuilderFacts BuilderFacts2 BuilderFacts3
  BuilderRun KinRep KinRepSpec KinRepFacts KinRepFacts2 KinRepFacts3 KdlSolver KdlSolverFacts IkPoseSpec IkPoseFacts2 IkPoseFacts3 IkPoseFacts4 IkPoseArms IkPoseExamples SolverLoopSpec SolverLoopFacts SolverLoopExamples
  IkRangeFacts IkRangeSpec.
Import ListNotations.
Open Scope R_scope.
Local Notation S := Datatypes.S.

Definition motions_of (c : chain) : list (option motion) := map (fun s => jointTypeToMotionId (j_type (s_joint s))) (filter moves c).
Lemma step_motions c : forall p h, map (fun e => Some (e_motion e)) (exps (fst (fold_left fromChain_step c (p, h)))) = map (fun e => Some (e_motion e)) (exps p) ++ motions_of c.
Proof.
  induction c as [|s c IH]; intros p h; [cbn; now rewrite app_nil_r|].
  cbn [fold_left]. unfold fromChain_step at 2. unfold motions_of. cbn [filter]. unfold moves at 1.
  destruct (j_type (s_joint s)) eqn:T; cbn [jointTypeToMotionId]; rewrite IH; cbn [map];
    try (rewrite T; cbn [append_exp exps]; rewrite map_app; cbn [map]; rewrite <- app_assoc; reflexivity).
  reflexivity.
Qed.
Lemma chain_motions c : map (fun e => Some (e_motion e)) (exps (fromChain c)) = motions_of c.
Proof. unfold fromChain. pose proof (step_motions c (mk_poe fid) fid) as H. destruct (fold_left _ _ _) as [p h]. exact H. Qed.
Lemma turns_motion c i : turns c i -> exists e, nth_error (exps (fromChain c)) i = Some e /\ e_motion e = ROTATION.
Proof.
  intros (s & N & R). pose proof (f_equal (fun l => nth_error l i) (chain_motions c)) as H. cbv beta in H. unfold motions_of in H.
  rewrite !nth_error_map, N in H. cbn [option_map] in H. destruct (nth_error (exps _) i) as [e|]; [|discriminate]. exists e. split; [reflexivity|].
  cbn [option_map] in H. unfold rotary in R. destruct (j_type (s_joint s)); try contradiction; cbn in H; congruence.
Qed.

(** the chain's joints and the limits stay *)
Definition kept (c : chain) (sel : selector) (s : solver) : Prop :=
  filter moves (sv_chain s) = filter moves c /\ filter moves (sv_original s) = filter moves c /\
  s_min (ik_sel (sv_ik s)) = s_min sel /\ s_max (ik_sel (sv_ik s)) = s_max sel.
Lemma open_kept fuel draws c sel s : sv_open fuel draws c sel = Returns (Some s) -> kept c sel s.
Proof.
  unfold sv_open, st_create. destruct (build _ _ _) as [[[[p ss] r]|]| |]; try discriminate. intro H.
  assert (s = Sv c c (StIk p ss r E_NOERROR sel)) as -> by congruence. repeat split.
Qed.
Lemma update_sel fuel draws c k k' : st_update fuel draws c k = Returns k' -> ik_sel k' = ik_sel k.
Proof.
  unfold st_update. destruct (build _ _ _) as [[[[p ss] r]|]| |]; try discriminate; intro H.
  - assert (k' = StIk p ss r (ik_error k) (ik_sel k)) as -> by congruence. reflexivity.
  - assert (k' = set_error k E_SOLUTION_NOT_FOUND) as -> by congruence. reflexivity.
Qed.
Lemma find_limits find s g b s' : strategy find -> find s g = Some (b, s') -> s_min s' = s_min s /\ s_max s' = s_max s.
Proof.
  assert (L : forall s g b s', find_least s g = Some (b, s') -> s_min s' = s_min s /\ s_max s' = s_max s).
  { clear. intros s g b s'. unfold find_least. intro H.
    repeat match type of H with context [match ?x with _ => _ end] => destruct x end; try discriminate; injection H as _ <-; auto. }
  intros [->| ->]; [apply L|]. unfold find_gait. intro H.
  repeat match type of H with context [match ?x with _ => _ end] => destruct x eqn:? end; try discriminate; try (injection H as _ <-; auto); apply L in H; exact H.
Qed.
Lemma cart_limits find k qi h r q k' : strategy find -> cart_to_jnt find k qi h = Some (r, q, k') -> s_min (ik_sel k') = s_min (ik_sel k) /\ s_max (ik_sel k') = s_max (ik_sel k).
Proof.
  intros ST. unfold cart_to_jnt. destruct (Z.eqb _ _).
  - intro H. assert (k' = k) as -> by congruence. auto.
  - destruct (ik_solve _ _ _ _) as [[ret sols]|]; [|discriminate]. destruct (configure _ _) as [[b s]|] eqn:CF; [|discriminate].
    assert (L1 : s_min s = s_min (ik_sel k) /\ s_max s = s_max (ik_sel k)).
    { unfold configure in CF. destruct (build_configs _ _ _); [|discriminate]. injection CF as _ <-. auto. }
    destruct b.
    + destruct (find s qi) as [[[] s']|] eqn:F; [| |discriminate].
      * apply (find_limits _ _ _ _ _ ST) in F. destruct (retrievePose s'); [|discriminate]. intro H.
        assert (k' = set_error (set_sel k s') (if ret then E_NOERROR else E_NOT_REACHABLE)) as -> by congruence. cbn. intuition congruence.
      * apply (find_limits _ _ _ _ _ ST) in F. intro H. assert (k' = set_error (set_sel k s') E_OUT_OF_LIMITS) as -> by congruence. cbn. intuition congruence.
    + intro H. assert (k' = set_error (set_sel k s) E_OUT_OF_LIMITS) as -> by congruence. exact L1.
Qed.
Lemma step_kept fuel find c sel s cl s' : strategy find -> kept c sel s -> call_step fuel find s cl = Returns s' -> kept c sel s'.
Proof.
  intros ST (K1 & K2 & K3 & K4) H. destruct cl as [[x|] draws|xd q fr]; cbn [call_step] in H; unfold tool_step in H; cbn [fst snd] in H.
  - unfold appendLink in H. destruct (st_update _ _ _ _) as [k| |] eqn:U; try discriminate.
    assert (s' = Sv (sv_chain s ++ [mk_segment fixed_joint (vectorToFrame x)]) (sv_original s) k) as -> by congruence.
    apply update_sel in U. unfold kept. cbn [sv_chain sv_original sv_ik]. rewrite U, filter_app. cbn [filter]. unfold moves at 2, mk_segment, fixed_joint. cbn [s_joint j_type].
    rewrite app_nil_r. auto.
  - unfold restoreOriginalChain in H. destruct (st_update _ _ _ _) as [k| |] eqn:U; try discriminate.
    assert (s' = Sv (sv_original s) (sv_original s) k) as -> by congruence. apply update_sel in U. unfold kept. cbn [sv_chain sv_original sv_ik]. rewrite U. auto.
  - destruct (invKin _ _ _ _ _) as [[a s1]|] eqn:IV; [|discriminate]. assert (s1 = s') as -> by congruence.
    pose proof (inv_same _ _ _ _ _ _ _ IV) as (E1 & E2 & _). unfold kept. rewrite E1, E2. split; [exact K1|]. split; [exact K2|].
    assert (L : s_min (ik_sel (sv_ik s')) = s_min (ik_sel (sv_ik s)) /\ s_max (ik_sel (sv_ik s')) = s_max (ik_sel (sv_ik s))); [|intuition congruence].
    clear - IV ST. unfold invKin in IV. destruct (joints_in _ _) as [qr|]; [|discriminate].
    set (t := match fr with BASE_FRAME => _ | TCP_FRAME => _ | OTHER_FRAME => _ end) in IV. clearbody t. destruct t as [[h|]|]; [| |discriminate].
    + destruct (cart_to_jnt _ _ _ _) as [[[ret q'] k]|] eqn:CJ; [|discriminate]. apply (cart_limits _ _ _ _ _ _ _ ST) in CJ.
      destruct (Z.ltb ret 0).
      * assert (s' = Sv (sv_chain s) (sv_original s) k) as -> by congruence. exact CJ.
      * destruct q'; [|discriminate]. assert (s' = Sv (sv_chain s) (sv_original s) k) as -> by congruence. exact CJ.
    + assert (s' = s) as -> by congruence. auto.
Qed.
Lemma run_kept fuel find c sel : strategy find -> forall cs s s', kept c sel s -> call_run fuel find s cs = Returns s' -> kept c sel s'.
Proof.
  intros ST. induction cs as [|cl cs IH]; cbn [call_run]; intros s s' K H; [congruence|].
  destruct (call_step _ _ _ _) as [s1| |] eqn:E; try discriminate. eapply IH; [|exact H]. eapply step_kept; eassumption.
Qed.

(** the pose asked for *)
Lemma answered_asked find s xd qg fr qd s' : invKin find s xd qg fr = Some (Some qd, s') -> exists target, asked s xd qg fr target.
Proof.
  unfold invKin. destruct (joints_in _ _) as [qr|] eqn:J; [|discriminate]. destruct fr; cbn [asked].
  - intros _. eexists; reflexivity.
  - destruct (chain_fwd_kin _ _) as [f|] eqn:F; [|discriminate]. intros _. eauto 8.
  - discriminate.
Qed.

Lemma candidate_range s c : current s -> filter moves (sv_chain s) = filter moves c -> ik_error (sv_ik s) <> E_SOLUTION_NOT_FOUND ->
  forall target flag cands q, ik_solve (ik_poe (sv_ik s)) (map sub_step (ik_steps (sv_ik s))) (ik_rev (sv_ik s)) target = Some (flag, cands) -> In q cands ->
  forall i x, turns c i -> nth_error q i = Some x -> - PI <= x <= PI.
Proof.
  intros (CC & _ & BD) K NE target flag cands q SV I i x T X. destruct (BD NE) as (fu & dr & B).
  assert (T' : turns (sv_chain s) i) by (unfold turns; rewrite K; exact T). destruct (turns_motion _ _ T') as (e & N & M).
  exact (proj2 (built_range _ _ _ _ _ _ _ _ _ _ (reachable_ok _ (pr_fromChain _ CC)) B SV I) i e x N M X).
Qed.
Theorem device_range fuel find draws c sel s0 cs s xd qg fr qd s' : chain_ok c -> strategy find ->
  sv_open fuel draws c sel = Returns (Some s0) -> call_run fuel find s0 cs = Returns s -> invKin find s xd qg fr = Some (Some qd, s') ->
  forall i x, turns c i -> nth_error qd i = Some x -> -180 <= x <= 180.
Proof.
  intros CO ST OP RN IV i x T X. destruct (answered_asked _ _ _ _ _ _ _ IV) as (target & AS).
  destruct (inv_parts _ _ _ _ _ _ _ _ ST AS IV) as (NF & flag & cands & q & SV & I & -> & _).
  pose proof (run_current _ _ _ _ _ (open_current _ _ _ _ _ CO OP) RN) as CU.
  destruct (run_kept _ _ _ _ ST _ _ _ (open_kept _ _ _ _ _ OP) RN) as (K & _).
  rewrite nth_error_map in X. destruct (nth_error q i) as [z|] eqn:Z; [|discriminate]. cbn [option_map] in X. assert (x = radToDeg z) as -> by congruence.
  pose proof (candidate_range s c CU K NF _ _ _ _ SV I i z T Z) as B. unfold radToDeg. pose proof PI_RGT_0.
  assert (P : 0 < 180 / PI) by (apply Rdiv_lt_0_compat; lra). assert (E : PI * (180 / PI) = 180) by (field; lra).
  split; nra.
Qed.

(** *** limits half a turn away *)
Lemma inv_valid find s xd qg fr target qd s' : strategy find -> asked s xd qg fr target -> invKin find s xd qg fr = Some (Some qd, s') ->
  ik_error (sv_ik s) <> E_SOLUTION_NOT_FOUND /\
  exists flag cands q, ik_solve (ik_poe (sv_ik s)) (map sub_step (ik_steps (sv_ik s))) (ik_rev (sv_ik s)) target = Some (flag, cands) /\
    In q cands /\ validate q (s_min (ik_sel (sv_ik s))) (s_max (ik_sel (sv_ik s))) = Some true.
Proof.
  intros ST AS. unfold invKin. destruct (joints_in _ _) as [qr|] eqn:J; [|discriminate].
  assert (E : (match fr with
        | BASE_FRAME => Some (Some (vectorToFrame xd))
        | TCP_FRAME => option_map (fun f => Some (fmul f (vectorToFrame xd))) (chain_fwd_kin (sv_chain s) qr)
        | OTHER_FRAME => Some None
        end) = Some (Some target)).
  { destruct fr; cbn in AS; [now subst| |destruct AS]. destruct AS as (f & qr' & A & B & ->). rewrite J in A. assert (qr' = qr) as -> by congruence. rewrite B. reflexivity. }
  rewrite E. unfold cart_to_jnt. destruct (Z.eqb _ _) eqn:EZ; [apply Z.eqb_eq in EZ; rewrite EZ; discriminate|]. apply Z.eqb_neq in EZ.
  destruct (ik_solve _ _ _ _) as [[flag cands]|] eqn:IK; [|discriminate].
  destruct (configure _ _) as [[[] s1]|] eqn:CF; [|discriminate|discriminate].
  destruct (find s1 qr) as [[[] s2]|] eqn:FD; [|discriminate|discriminate].
  destruct (retrievePose s2) as [q|] eqn:RP; [|discriminate]. intros H. split; [exact EZ|].
  exists flag, cands, q. split; [reflexivity|].
  unfold configure in CF. destruct (build_configs _ _ _) as [l|] eqn:BC; [|discriminate]. injection CF as EX <-.
  assert (V : exists c, In c l /\ c_valid c = true /\ retrievePose s2 = Some (c_q c)) by (destruct ST; subst find; [apply least_valid in FD|apply gait_valid in FD]; exact FD).
  destruct V as (c & I & V & EQ). rewrite RP in EQ. injection EQ as ->.
  destruct (build_in _ _ _ _ BC c I) as [IC VC]. rewrite V in VC. auto.
Qed.
(** all the values allowed to the joint are beyond half a turn *)
Lemma beyond_invalid s c i : current s -> filter moves (sv_chain s) = filter moves c -> ik_error (sv_ik s) <> E_SOLUTION_NOT_FOUND ->
  turns c i -> beyond (s_min (ik_sel (sv_ik s))) (s_max (ik_sel (sv_ik s))) i ->
  forall target flag cands q, ik_solve (ik_poe (sv_ik s)) (map sub_step (ik_steps (sv_ik s))) (ik_rev (sv_ik s)) target = Some (flag, cands) -> In q cands ->
  validate q (s_min (ik_sel (sv_ik s))) (s_max (ik_sel (sv_ik s))) <> Some true.
Proof.
  intros CU K NF T (lo & hi & L & H & BE) target flag cands q SV I VQ.
  assert (Z : exists z, nth_error q i = Some z).
  { destruct CU as (CC & _ & BD). destruct (BD NF) as (fu & dr & B).
    destruct (built_range _ _ _ _ _ _ _ _ _ _ (reachable_ok _ (pr_fromChain _ CC)) B SV I) as [LQ _].
    assert (T' : turns (sv_chain s) i) by (unfold turns; rewrite K; exact T). destruct (turns_motion _ _ T') as (e & N & _).
    assert (i < length q)%nat by (rewrite LQ; apply nth_error_Some; congruence). destruct (nth_error q i) as [z|] eqn:Z; [eauto|]. apply nth_error_None in Z. lia. }
  destruct Z as (z & Z). pose proof (candidate_range s c CU K NF _ _ _ _ SV I i z T Z) as B.
  pose proof (validate_in _ _ _ VQ i z lo hi Z L H). lra.
Qed.
Theorem device_blocked fuel find draws c qMin qMax s0 cs s xd qg fr i : chain_ok c -> strategy find ->
  sv_open fuel draws c (new_selector qMin qMax) = Returns (Some s0) -> call_run fuel find s0 cs = Returns s ->
  turns c i -> beyond qMin qMax i -> forall qd s', invKin find s xd qg fr <> Some (Some qd, s').
Proof.
  intros CO ST OP RN T BE qd s' IV. destruct (answered_asked _ _ _ _ _ _ _ IV) as (target & AS).
  destruct (inv_valid _ _ _ _ _ _ _ _ ST AS IV) as (NF & flag & cands & q & SV & I & VQ).
  pose proof (run_current _ _ _ _ _ (open_current _ _ _ _ _ CO OP) RN) as CU.
  destruct (run_kept _ _ _ _ ST _ _ _ (open_kept _ _ _ _ _ OP) RN) as (K & _ & KM & KX). cbn [new_selector s_min s_max] in KM, KX.
  refine (beyond_invalid s c i CU K NF T _ _ _ _ _ SV I VQ). rewrite KM, KX. exact BE.
Qed.

(** *** an arm whose base turns between 200 and 300 degrees *)
Lemma some_configs : forall lo hi sols, length lo = 6%nat -> length hi = 6%nat -> (forall q, In q sols -> length q = 6%nat) -> exists l, build_configs lo hi sols = Some l.
Proof.
  intros lo hi sols L H. induction sols as [|q sols IH]; intro A; [eexists; reflexivity|]. cbn [build_configs].
  destruct (validate_spec q lo hi) as (b & E & _); [rewrite (A q) by (left; reflexivity); auto..|]. rewrite E.
  destruct IH as (l & ->); [intros; apply A; right; assumption|]. eexists; reflexivity.
Qed.
Definition ymin := degToRad 200 :: repeat (- PI) 5.
Definition ymax := degToRad 300 :: repeat PI 5.
Definition yd6 : list R := [270; 0; 0; 90; 0; 90].
Definition ys : solver := Sv xc xc (StIk xp (wrist_steps (exps xp) xr xw xx xy) false E_NOERROR (new_selector ymin ymax)).
Lemma ys_open : sv_open 1000 (map Q2R x_draws) xc (new_selector ymin ymax) = Returns (Some ys).
Proof. unfold sv_open, st_create. rewrite xc_poe, x_built. reflexivity. Qed.
Lemma y_within : within ymin ymax (map degToRad yd6).
Proof.
  split; [reflexivity|]. split; [reflexivity|]. pose proof PI_RGT_0. pose proof kdl_eps_pos.
  intros i x lo hi A B C. do 6 (destruct i as [|i]; [cbn in A, B, C; injection A as <-; injection B as <-; injection C as <-; unfold degToRad; lra|]). destruct i; discriminate.
Qed.
Lemma x_turns : forall i, (i < 6)%nat -> turns xc i.
Proof. intros i L. do 6 (destruct i as [|i]; [eexists; split; [reflexivity|exact I]|]). lia. Qed.
Lemma y_beyond : beyond ymin ymax 0.
Proof. exists (degToRad 200), (degToRad 300). split; [reflexivity|]. split; [reflexivity|]. left. unfold degToRad, kdl_eps. pose proof PI_RGT_0. pose proof PI2_1. lra. Qed.
Lemma y_refuses xd qg : length qg = 6%nat -> exists s', invKin find_least ys xd qg BASE_FRAME = Some (None, s').
Proof.
  intro LQ. unfold invKin. assert (J : joints_in (sv_chain ys) qg = Some (map degToRad qg)).
  { unfold joints_in. change (nr_of_joints (sv_chain ys)) with 6%nat. rewrite LQ. cbn [Nat.leb]. rewrite <- LQ, firstn_all. reflexivity. }
  rewrite J. cbv zeta iota. unfold cart_to_jnt.
  change (Z.eqb (ik_error (sv_ik ys)) E_SOLUTION_NOT_FOUND) with false. cbv iota.
  destruct (built_defined 1000 (map Q2R x_draws) xp _ _ _ xr xw xx xy (vectorToFrame xd) x_ok x_built x_arm eq_refl) as (flag & cands & SV).
  change (ik_solve (ik_poe (sv_ik ys)) (map sub_step (ik_steps (sv_ik ys))) (ik_rev (sv_ik ys)) (vectorToFrame xd)) with (ik_solve xp (map sub_step (wrist_steps (exps xp) xr xw xx xy)) false (vectorToFrame xd)).
  rewrite SV.
  assert (LC : forall q, In q cands -> length q = 6%nat).
  { intros q I. exact (proj1 (built_range _ _ _ _ _ _ _ _ _ _ x_ok x_built SV I)). }
  destruct (some_configs ymin ymax cands eq_refl eq_refl LC) as (l & BC).
  unfold configure. change (s_min (ik_sel (sv_ik ys))) with ymin. change (s_max (ik_sel (sv_ik ys))) with ymax. rewrite BC.
  assert (F : existsb c_valid l = false).
  { destruct (existsb c_valid l) eqn:E; [|reflexivity]. apply existsb_exists in E. destruct E as (cf & I & V). destruct (build_in _ _ _ _ BC cf I) as [IC VC]. rewrite V in VC.
    exfalso. refine (beyond_invalid ys xc 0 (open_current _ _ _ _ _ xc_ok ys_open) eq_refl _ (x_turns 0 ltac:(lia)) y_beyond _ _ _ _ SV IC VC). discriminate. }
  rewrite F. cbn [Z.ltb E_OUT_OF_LIMITS]. eexists. reflexivity.
Qed.
Lemma y_pose : exists f, chain_fwd_kin xc (map degToRad yd6) = Some f.
Proof. destruct (fk_fromChain xc (map degToRad yd6) xc_ok eq_refl) as (_ & f & F & _). eauto. Qed.
Theorem within_refused : exists fuel draws c qMin qMax s q x, chain_ok c /\ sv_open fuel draws c (new_selector qMin qMax) = Returns (Some s) /\
  within qMin qMax (map degToRad q) /\ fwdKin s q = Some x /\ forall qg, length qg = length q -> exists s', invKin find_least s x qg BASE_FRAME = Some (None, s').
Proof.
  destruct y_pose as (f & F). exists 1000%nat, (map Q2R x_draws), xc, ymin, ymax, ys, yd6, (frameToVector f).
  split; [exact xc_ok|]. split; [exact ys_open|]. split; [exact y_within|]. split; [|intros; apply y_refuses; assumption].
  transitivity (option_map frameToVector (chain_fwd_kin xc (map degToRad yd6))); [reflexivity|]. rewrite F. reflexivity.
Qed.
Lemma x_some : exists cands, ik_solve xp (map sub_step (wrist_steps (exps xp) xr xw xx xy)) false xt = Some (true, cands) /\ exists q, In q cands.
Proof. destruct x_reachable as (cands & A & B). exists cands. split; [exact A|]. eexists. exact B. Qed.
