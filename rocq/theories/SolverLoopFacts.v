(** Lemmas about inverse followed by forward kinematics on the solver device. *)
From Coq Require Import ZArith Reals Lra List Bool Lia Arith.
From Verif Require Import Kdl KdlFacts KdlRot KdlRotFacts Screw ScrewFacts Subproblems IkProblem IkSpec IkProblemFacts3 Selector SelectorFacts Builder BuilderSpec BuilderFacts BuilderFacts2 BuilderFacts3
  KinRep KinRepSpec KinRepFacts KinRepFacts2 KinRepFacts3 KdlSolver KdlSolverFacts IkPoseSpec IkPoseFacts2 IkPoseFacts3 IkPoseFacts4 SolverLoopSpec.
Import ListNotations.
Open Scope R_scope.
Local Notation S := Datatypes.S.

(** *** the problem in use belongs to the chain in use *)
Definition current (s : solver) : Prop :=
  chain_ok (sv_chain s) /\ chain_ok (sv_original s) /\
  (ik_error (sv_ik s) <> E_SOLUTION_NOT_FOUND -> exists fuel draws,
    build fuel draws (fromChain (sv_chain s)) = Returns (Some (ik_poe (sv_ik s), ik_steps (sv_ik s), ik_rev (sv_ik s)))).

Lemma tool_segment_ok : forall x, segment_ok (tool_segment x).
Proof.
  intro x. unfold tool_segment, mk_segment, segment_ok, fixed_joint. cbn [s_joint s_tip j_type j_axis j_origin j_scale j_offset].
  split; [apply rigid_mul; [apply rigid_inv|apply always_rigid]|].
  - unfold joint_pose. cbn. apply rigid_id.
  - split; [intros [Q|Q]; discriminate|]. auto.
Qed.
Lemma open_current : forall fuel draws c sel s, chain_ok c -> sv_open fuel draws c sel = Returns (Some s) -> current s.
Proof.
  intros fuel draws c sel s C H. unfold sv_open, st_create in H. destruct (build _ _ _) as [[[[p ss] rev]|]| |] eqn:B; try discriminate.
  assert (s = Sv c c (StIk p ss rev E_NOERROR sel)) as -> by congruence. split; [exact C|]. split; [exact C|]. intros _. exists fuel, draws. exact B.
Qed.
Lemma update_current : forall fuel draws c k k', st_update fuel draws c k = Returns k' ->
  ik_error k' <> E_SOLUTION_NOT_FOUND -> exists fuel draws, build fuel draws (fromChain c) = Returns (Some (ik_poe k', ik_steps k', ik_rev k')).
Proof.
  intros fuel draws c k k' H NE. unfold st_update in H. destruct (build _ _ _) as [[[[p ss] rev]|]| |] eqn:B; try discriminate.
  - assert (k' = StIk p ss rev (ik_error k) (ik_sel k)) as -> by congruence. exists fuel, draws. exact B.
  - assert (k' = set_error k E_SOLUTION_NOT_FOUND) as -> by congruence. now contradiction NE.
Qed.
Lemma cart_same : forall find k qi h r q k', cart_to_jnt find k qi h = Some (r, q, k') ->
  ik_poe k' = ik_poe k /\ ik_steps k' = ik_steps k /\ ik_rev k' = ik_rev k /\ (ik_error k' <> E_SOLUTION_NOT_FOUND -> ik_error k <> E_SOLUTION_NOT_FOUND) /\ ik_error k' = r.
Proof.
  intros find k qi h r q k'. unfold cart_to_jnt. destruct (Z.eqb _ _) eqn:Z.
  - intro H. assert (k' = k) as -> by congruence. assert (r = ik_error k) as -> by congruence. auto.
  - apply Z.eqb_neq in Z. destruct (ik_solve _ _ _ _) as [[ret sols]|]; [|discriminate]. destruct (configure _ _) as [[[] s]|]; [| |discriminate].
    + destruct (find s qi) as [[[] s']|]; [| |discriminate].
      * destruct (retrievePose s'); [|discriminate]. intro H. assert (E : k' = set_error (set_sel k s') (if ret then E_NOERROR else E_NOT_REACHABLE)) by congruence.
        assert (r = if ret then E_NOERROR else E_NOT_REACHABLE) by congruence. subst. cbn. auto.
      * intro H. assert (E : k' = set_error (set_sel k s') E_OUT_OF_LIMITS) by congruence. assert (r = E_OUT_OF_LIMITS) by congruence. subst. cbn. auto.
    + intro H. assert (E : k' = set_error (set_sel k s) E_OUT_OF_LIMITS) by congruence. assert (r = E_OUT_OF_LIMITS) by congruence. subst. cbn. auto.
Qed.
Lemma inv_same : forall find s xd q fr a s', invKin find s xd q fr = Some (a, s') ->
  sv_chain s' = sv_chain s /\ sv_original s' = sv_original s /\
  ik_poe (sv_ik s') = ik_poe (sv_ik s) /\ ik_steps (sv_ik s') = ik_steps (sv_ik s) /\ ik_rev (sv_ik s') = ik_rev (sv_ik s) /\
  (ik_error (sv_ik s') <> E_SOLUTION_NOT_FOUND -> ik_error (sv_ik s) <> E_SOLUTION_NOT_FOUND).
Proof.
  intros find s xd q fr a s'. unfold invKin. destruct (joints_in _ _) as [qr|]; [|discriminate].
  set (t := match fr with BASE_FRAME => _ | TCP_FRAME => _ | OTHER_FRAME => _ end). clearbody t. destruct t as [[h|]|]; [| |discriminate].
  - destruct (cart_to_jnt _ _ _ _) as [[[ret q'] k]|] eqn:CJ; [|discriminate]. apply cart_same in CJ. destruct CJ as (A & B & C & D & _).
    destruct (Z.ltb ret 0).
    + intro H. assert (s' = Sv (sv_chain s) (sv_original s) k) as -> by congruence. cbn. auto 10.
    + destruct q'; [|discriminate]. intro H. assert (s' = Sv (sv_chain s) (sv_original s) k) as -> by congruence. cbn. auto 10.
  - intro H. assert (s' = s) as -> by congruence. auto 10.
Qed.
Lemma step_current : forall fuel find s c s', current s -> call_step fuel find s c = Returns s' -> current s'.
Proof.
  intros fuel find s c s' (C & O & B) H. destruct c as [[x|] draws|xd q fr]; cbn [call_step] in H; unfold tool_step in H; cbn [fst snd] in H.
  - unfold appendLink in H. destruct (st_update _ _ _ _) as [k| |] eqn:U; try discriminate.
    assert (s' = Sv (sv_chain s ++ [mk_segment fixed_joint (vectorToFrame x)]) (sv_original s) k) as -> by congruence.
    split; [|split; [exact O|]]; cbn [sv_chain sv_ik].
    + apply Forall_app. split; [exact C|]. constructor; [apply (tool_segment_ok x)|constructor].
    + intro NE. exact (update_current _ _ _ _ _ U NE).
  - unfold restoreOriginalChain in H. destruct (st_update _ _ _ _) as [k| |] eqn:U; try discriminate.
    assert (s' = Sv (sv_original s) (sv_original s) k) as -> by congruence. split; [exact O|]. split; [exact O|]. cbn [sv_chain sv_ik]. intro NE.
    exact (update_current _ _ _ _ _ U NE).
  - destruct (invKin _ _ _ _ _) as [[a s1]|] eqn:IV; [|discriminate]. assert (s1 = s') as -> by congruence. apply inv_same in IV.
    destruct IV as (E1 & E2 & E3 & E4 & E5 & E6). unfold current. rewrite E1, E2, E3, E4, E5. auto.
Qed.
Lemma run_current : forall fuel find cs s s', current s -> call_run fuel find s cs = Returns s' -> current s'.
Proof.
  intros fuel find. induction cs as [|c cs IH]; cbn [call_run]; intros s s' C H; [congruence|].
  destruct (call_step _ _ _ _) as [s1| |] eqn:ST; try discriminate. eapply IH; [|exact H]. eapply step_current; eassumption.
Qed.

(** *** what invKin answers *)
Lemma inv_parts : forall find s xd qg fr target qd s', strategy find -> asked s xd qg fr target ->
  invKin find s xd qg fr = Some (Some qd, s') ->
  ik_error (sv_ik s) <> E_SOLUTION_NOT_FOUND /\
  exists flag cands q, ik_solve (ik_poe (sv_ik s)) (map sub_step (ik_steps (sv_ik s))) (ik_rev (sv_ik s)) target = Some (flag, cands) /\
    In q cands /\ qd = map radToDeg q /\ ik_error (sv_ik s') = if flag then E_NOERROR else E_NOT_REACHABLE.
Proof.
  intros find s xd qg fr target qd s' ST AS. unfold invKin. destruct (joints_in _ _) as [qr|] eqn:J; [|discriminate].
  assert (E : (match fr with
        | BASE_FRAME => Some (Some (vectorToFrame xd))
        | TCP_FRAME => option_map (fun f => Some (fmul f (vectorToFrame xd))) (chain_fwd_kin (sv_chain s) qr)
        | OTHER_FRAME => Some None
        end) = Some (Some target)).
  { destruct fr; cbn in AS; [now subst| |destruct AS]. destruct AS as (f & qr' & A & B & ->). rewrite J in A. assert (qr' = qr) as -> by congruence. rewrite B. reflexivity. }
  rewrite E. unfold cart_to_jnt. destruct (Z.eqb _ _) eqn:EZ; [apply Z.eqb_eq in EZ; rewrite EZ; discriminate|]. apply Z.eqb_neq in EZ.
  destruct (ik_solve _ _ _ _) as [[flag cands]|] eqn:IK; [|discriminate].
  destruct (configure _ _) as [[[] s1]|] eqn:CF; [|discriminate|discriminate].
  destruct (find s1 qr) as [[[] s2]|] eqn:FD; [|discriminate|discriminate].
  destruct (retrievePose s2) as [q|] eqn:RP; [|discriminate]. intros H. split; [exact EZ|].
  exists flag, cands, q. split; [reflexivity|].
  assert (Q : qd = map radToDeg q /\ s' = Sv (sv_chain s) (sv_original s) (set_error (set_sel (sv_ik s) s2) (if flag then E_NOERROR else E_NOT_REACHABLE))) by (destruct flag; cbn in H; split; congruence).
  destruct Q as [Q ->]. unfold configure in CF. destruct (build_configs _ _ _) as [l|] eqn:BC; [|discriminate]. injection CF as EX <-.
  assert (V : exists c, In c l /\ c_valid c = true /\ retrievePose s2 = Some (c_q c)) by (destruct ST; subst find; [apply least_valid in FD|apply gait_valid in FD]; exact FD).
  destruct V as (c & I & V & EQ). rewrite RP in EQ. injection EQ as ->.
  destruct (build_in _ _ _ _ BC c I) as [IC VC]. auto.
Qed.
Lemma degrees_back : forall q, map degToRad (map radToDeg q) = q.
Proof. intro q. rewrite map_map. rewrite <- (map_id q) at 2. apply map_ext. intro x. unfold degToRad, radToDeg. pose proof PI_RGT_0. field. lra. Qed.
Lemma radians_back : forall q, map radToDeg (map degToRad q) = q.
Proof. intro q. rewrite map_map. rewrite <- (map_id q) at 2. apply map_ext. intro x. unfold degToRad, radToDeg. pose proof PI_RGT_0. field. lra. Qed.

(** *** inverse, then forward *)
Theorem loop_stands : forall find s xd qg fr target qd s' r w x y,
  strategy find -> current s -> wrist_problem s r w x y -> asked s xd qg fr target ->
  invKin find s xd qg fr = Some (Some qd, s') -> ik_error (sv_ik s') = E_NOERROR ->
  length qd = nr_of_joints (sv_chain s) /\ exists f, chain_fwd_kin (sv_chain s) (map degToRad qd) = Some f /\ rigid f /\ forall a b c,
    let p' := ik_poe (sv_ik s) in
    let z := combination w (vsub x w) (vsub y w) a b c in
    dist (carried p' (if ik_rev (sv_ik s) then finv f else f) z) (carried p' (if ik_rev (sv_ik s) then finv target else target) z)
      <= wrist_bound (exps p') r w x y a b c.
Proof.
  intros find s xd qg fr target qd s' r w x y ST (CC & _ & BD) [WA WS] AS IV NE.
  destruct (inv_parts _ _ _ _ _ _ _ _ ST AS IV) as (NF & flag & cands & q & SV & I & -> & ER).
  assert (flag = true) as -> by (destruct flag; [reflexivity|rewrite ER in NE; discriminate]).
  destruct (BD NF) as (fu & dr & B).
  assert (RT : rigid target).
  { destruct fr; cbn in AS; [subst; apply always_rigid| |destruct AS]. destruct AS as (f & qr & J & F & ->). apply rigid_mul; [|apply always_rigid].
    unfold joints_in in J. destruct (Nat.leb _ _) eqn:LE; [|discriminate]. apply Nat.leb_le in LE.
    assert (L : length qr = nr_of_joints (sv_chain s)) by (assert (qr = map degToRad (firstn (nr_of_joints (sv_chain s)) qg)) as -> by congruence; rewrite map_length, firstn_length; lia).
    destruct (fk_fromChain _ _ CC L) as (_ & f1 & F1 & F2). assert (f1 = f) as -> by congruence.
    destruct (proj1 (fk_rigid _ qr (pr_fromChain _ CC))) as (f' & F3 & R); [|congruence]. rewrite L. symmetry. apply (fk_fromChain _ qr CC L). }
  destruct (built_sound fu dr _ _ _ _ r w x y target (reachable_ok _ (pr_fromChain _ CC)) B WA WS cands q RT SV I) as (f & EV & RF & BO).
  assert (L : length q = nr_of_joints (sv_chain s)).
  { unfold evaluate in EV. destruct (Nat.eqb _ _) eqn:E in EV; [|discriminate]. apply Nat.eqb_eq in E. rewrite <- E.
    apply (fk_fromChain _ (repeat 0 (nr_of_joints (sv_chain s))) CC). apply repeat_length. }
  rewrite map_length. split; [exact L|]. exists f. split; [|split; [exact RF|exact BO]].
  destruct (fk_fromChain _ q CC L) as (_ & f' & F1 & F2). assert (f' = f) as -> by congruence.
  rewrite degrees_back. exact F1.
Qed.
Theorem loop_reached : forall fuel find draws c sel s0 cs s xd qg fr target qd s' r w x y,
  chain_ok c -> strategy find -> sv_open fuel draws c sel = Returns (Some s0) -> call_run fuel find s0 cs = Returns s ->
  wrist_problem s r w x y -> asked s xd qg fr target ->
  invKin find s xd qg fr = Some (Some qd, s') -> ik_error (sv_ik s') = E_NOERROR ->
  exists f, fwdKin s qd = Some (frameToVector f) /\ rigid f /\ forall a b c,
    let p' := ik_poe (sv_ik s) in
    let z := combination w (vsub x w) (vsub y w) a b c in
    dist (carried p' (if ik_rev (sv_ik s) then finv f else f) z) (carried p' (if ik_rev (sv_ik s) then finv target else target) z)
      <= wrist_bound (exps p') r w x y a b c.
Proof.
  intros fuel find draws c sel s0 cs s xd qg fr target qd s' r w x y CO ST OP RN WP AS IV NE.
  pose proof (run_current _ _ _ _ _ (open_current _ _ _ _ _ CO OP) RN) as CU.
  destruct (loop_stands _ _ _ _ _ _ _ _ _ _ _ _ ST CU WP AS IV NE) as (L & f & F & RF & BO). exists f. split; [|split; [exact RF|exact BO]].
  unfold fwdKin, joints_in. rewrite L, Nat.leb_refl. rewrite <- L, firstn_all, F. reflexivity.
Qed.

(** *** forward, then inverse *)
Lemma tool_sel : forall fuel os s s', tool_run fuel s os = Returns s' -> ik_sel (sv_ik s') = ik_sel (sv_ik s).
Proof.
  intros fuel. induction os as [|o os IH]; cbn [tool_run]; intros s s' H; [congruence|].
  destruct (tool_step fuel s o) as [s1| |] eqn:ST; try discriminate. rewrite (IH _ _ H). clear IH H.
  unfold tool_step in ST. destruct (fst o).
  - unfold appendLink in ST. destruct (st_update _ _ _ _) as [k| |] eqn:U; try discriminate.
    assert (sv_ik s1 = k) as -> by (assert (E : Returns (sv_ik s1) = Returns k) by (injection ST as <-; reflexivity); congruence).
    unfold st_update in U. destruct (build _ _ _) as [[[[p ss] rev]|]| |]; try discriminate.
    + assert (k = StIk p ss rev (ik_error (sv_ik s)) (ik_sel (sv_ik s))) as -> by congruence. reflexivity.
    + assert (k = set_error (sv_ik s) E_SOLUTION_NOT_FOUND) as -> by congruence. reflexivity.
  - unfold restoreOriginalChain in ST. destruct (st_update _ _ _ _) as [k| |] eqn:U; try discriminate.
    assert (sv_ik s1 = k) as -> by (assert (E : Returns (sv_ik s1) = Returns k) by (injection ST as <-; reflexivity); congruence).
    unfold st_update in U. destruct (build _ _ _) as [[[[p ss] rev]|]| |]; try discriminate.
    + assert (k = StIk p ss rev (ik_error (sv_ik s)) (ik_sel (sv_ik s))) as -> by congruence. reflexivity.
    + assert (k = set_error (sv_ik s) E_SOLUTION_NOT_FOUND) as -> by congruence. reflexivity.
Qed.
Lemma tool_calls : forall fuel find os s, call_run fuel find s (map (fun o => Tool (fst o) (snd o)) os) = tool_run fuel s os.
Proof.
  intros fuel find. induction os as [|[o d] os IH]; intro s; [reflexivity|]. cbn [map call_run tool_run call_step fst snd].
  destruct (tool_step fuel s (o, d)); auto.
Qed.
Lemma displacement_0 : forall a b, length a = length b -> displacement a b <= 0 -> a = b.
Proof.
  induction a as [|x a IH]; intros [|y b] L H; try discriminate; [reflexivity|].
  unfold displacement in *. cbn in H, L.
  assert (P0 : forall l, 0 <= fold_right Rplus 0 (map (fun xy : R * R => Rabs (fst xy - snd xy)) l)).
  { intro l. induction l as [|z l IHl]; cbn; [lra|]. pose proof (Rabs_pos (fst z - snd z)). lra. }
  pose proof (P0 (combine a b)). pose proof (Rabs_pos (x - y)).
  assert (Z : Rabs (x - y) = 0) by lra. f_equal.
  - destruct (Req_dec (x - y) 0) as [E|E]; [lra|]. apply Rabs_no_R0 in E. contradiction.
  - apply IH; [congruence|lra].
Qed.
Lemma displacement_same : forall a, displacement a a = 0.
Proof. unfold displacement. induction a as [|x a IH]; cbn; [reflexivity|]. rewrite IH, Rminus_diag_eq by reflexivity. rewrite Rabs_R0. ring. Qed.

Section Back.
Variables (fuel : nat) (draws : list R) (c : chain) (qMin qMax : list R) (s0 s : solver) (os : list (tool_op * list R)) (r w x y : vec).
Hypotheses (CO : chain_ok c) (OP : sv_open fuel draws c (new_selector qMin qMax) = Returns (Some s0))
  (RN : tool_run fuel s0 os = Returns s) (NE : ik_error (sv_ik s) <> E_SOLUTION_NOT_FOUND) (WP : wrist_problem s r w x y).
Let turned (q : list R) := if ik_rev (sv_ik s) then rev_neg q else q.

Lemma back_six : nr_of_joints (sv_chain s) = 6%nat /\ exists fuel draws,
  build fuel draws (fromChain (sv_chain s)) = Returns (Some (ik_poe (sv_ik s), ik_steps (sv_ik s), ik_rev (sv_ik s))) /\ chain_ok (sv_chain s).
Proof.
  pose proof (open_current _ _ _ _ _ CO OP) as CU. rewrite <- (tool_calls fuel find_least) in RN.
  pose proof (run_current _ _ _ _ _ CU RN) as (CC & _ & BD). destruct (BD NE) as (fu & dr & B). split; [|eauto].
  destruct WP as [WA _]. destruct (built_ok _ _ _ _ _ _ (reachable_ok _ (pr_fromChain _ CC)) B) as [_ E].
  destruct (six _ _ _ _ _ WA) as (e0 & e1 & e2 & e3 & e4 & e5 & EE).
  assert (L : length (exps (ik_poe (sv_ik s))) = 6%nat) by (rewrite EE; reflexivity). rewrite E in L.
  rewrite <- (proj1 (fk_fromChain (sv_chain s) (repeat 0 (nr_of_joints (sv_chain s))) CC (repeat_length _ _))).
  destruct (ik_rev (sv_ik s)); [|exact L]. unfold reverseSelf in L. cbn [exps] in L. rewrite rev_length, map_length in L. exact L.
Qed.

Lemma loop_near : forall q qg f, within qMin qMax (map degToRad q) -> length qg = 6%nat ->
  regular (exps (ik_poe (sv_ik s))) r w x (turned (map degToRad q)) ->
  chain_fwd_kin (sv_chain s) (map degToRad q) = Some f -> regular_log (fM f) ->
  exists qd s', fwdKin s q = Some (frameToVector f) /\ invKin find_least s (frameToVector f) qg BASE_FRAME = Some (Some qd, s') /\
    within qMin qMax (map degToRad qd) /\
    displacement (map degToRad qg) (map degToRad qd) <= displacement (map degToRad qg) (map degToRad q).
Proof.
  intros q qg f WI LG RG FK RL. destruct back_six as (N6 & fu & dr & B & CC). destruct WP as [WA WS].
  pose proof (reachable_ok _ (pr_fromChain _ CC)) as POK.
  destruct (built_ok _ _ _ _ _ _ POK B) as [PK E].
  assert (LQ : length (map degToRad q) = 6%nat).
  { destruct (six _ _ _ _ _ WA) as (e0 & e1 & e2 & e3 & e4 & e5 & EE). rewrite EE in RG. unfold turned, rev_neg in RG.
    destruct (ik_rev (sv_ik s)).
    - rewrite <- (map_length Ropp), <- rev_length. destruct (rev (map Ropp (map degToRad q))) as [|t0 [|t1 [|t2 [|t3 [|t4 [|t5 [|]]]]]]]; cbn in RG; try contradiction. reflexivity.
    - destruct (map degToRad q) as [|t0 [|t1 [|t2 [|t3 [|t4 [|t5 [|]]]]]]]; cbn in RG; try contradiction. reflexivity. }
  assert (LQ' : length q = 6%nat) by (rewrite map_length in LQ; exact LQ).
  destruct (fk_fromChain _ (map degToRad q) CC) as (_ & f' & F1 & F2); [congruence|]. assert (f' = f) as -> by congruence.
  destruct (built_found _ _ _ _ _ _ r w x y f POK B WA WS _ F2 RG) as (flag & cands & SV & I).
  assert (RF : rotation_matrix (fM f)).
  { destruct (proj1 (fk_rigid _ (map degToRad q) (pr_fromChain _ CC))) as (f1 & F3 & R); [|assert (f1 = f) as <- by congruence; exact R].
    rewrite LQ. symmetry. rewrite <- N6. apply (fk_fromChain _ (map degToRad q) CC). congruence. }
  assert (SZ : forall q', In q' cands -> length q' = 6%nat).
  { clear E. destruct (six _ _ _ _ _ WA) as (e0 & e1 & e2 & e3 & e4 & e5 & EE).
    assert (EP : ik_poe (sv_ik s) = P [e0; e1; e2; e3; e4; e5] (tool (ik_poe (sv_ik s)))) by (rewrite <- EE; now destruct (ik_poe (sv_ik s))).
    pose proof (wrist_steps_ok e0 e1 e2 e3 e4 e5 (tool (ik_poe (sv_ik s))) r w x y) as OK.
    rewrite WS in SV. rewrite EP in SV at 2. cbn [exps] in SV.
    assert (EM : map sub_step (wrist_steps [e0; e1; e2; e3; e4; e5] r w x y) = map fst (problem_steps (wrist_steps [e0; e1; e2; e3; e4; e5] r w x y))) by (unfold problem_steps; now rewrite map_map).
    rewrite EM in SV.
    destruct (IkProblemFacts2.solve_spec (ik_poe (sv_ik s)) (ik_rev (sv_ik s)) f PK (problem_steps (wrist_steps [e0; e1; e2; e3; e4; e5] r w x y)) flag cands) as (_ & A & _).
    - rewrite EE. exact OK.
    - discriminate.
    - exact SV.
    - rewrite EE in A. exact A. }
  assert (SE : ik_sel (sv_ik s) = new_selector qMin qMax).
  { rewrite (tool_sel _ _ _ _ RN). clear -OP. unfold sv_open, st_create in OP. destruct (build _ _ _) as [[[[p ss] rev]|]| |]; try discriminate.
    assert (s0 = Sv c c (StIk p ss rev E_NOERROR (new_selector qMin qMax))) as -> by congruence. reflexivity. }
  assert (LM : length qMin = 6%nat /\ length qMax = 6%nat) by (destruct WI as (A1 & A2 & _); rewrite LQ in A1, A2; auto). destruct LM as [LM1 LM2].
  destruct (first_use qMin qMax cands (map degToRad qg)) as (b & s1 & C1 & C2 & s2 & C3 & C4).
  { intros q' H. rewrite (SZ _ H), LM1, LM2. auto. }
  { rewrite map_length. congruence. }
  assert (b = true) as -> by (apply C2; eauto).
  destruct (C4 eq_refl) as (qd & RP & i & Ni & Wd & BEST).
  exists (map radToDeg qd), (Sv (sv_chain s) (sv_original s) (set_error (set_sel (sv_ik s) s2) (if flag then E_NOERROR else E_NOT_REACHABLE))). rewrite degrees_back.
  split; [|split; [|split; [exact Wd|]]].
  - unfold fwdKin, joints_in. rewrite N6, LQ', Nat.leb_refl, <- LQ', firstn_all, F1. reflexivity.
  - unfold invKin, joints_in. rewrite N6, LG, Nat.leb_refl, <- LG, firstn_all. rewrite frame_round_trip by assumption. unfold cart_to_jnt.
    destruct (Z.eqb _ _) eqn:EZ; [apply Z.eqb_eq in EZ; contradiction|]. rewrite SV, SE, C1, C3, RP. destruct flag; reflexivity.
  - apply In_nth_error in I. destruct I as (j & Nj). destruct (BEST j _ Nj WI) as [H|[H _]]; lra.
Qed.
Theorem loop_back : forall q f, within qMin qMax (map degToRad q) ->
  regular (exps (ik_poe (sv_ik s))) r w x (turned (map degToRad q)) ->
  chain_fwd_kin (sv_chain s) (map degToRad q) = Some f -> regular_log (fM f) ->
  exists s', fwdKin s q = Some (frameToVector f) /\ invKin find_least s (frameToVector f) q BASE_FRAME = Some (Some q, s').
Proof.
  intros q f WI RG FK RL.
  assert (LQ : length q = 6%nat).
  { destruct back_six as (N6 & fu & dr & B & CC). destruct WP as [WA _]. destruct (six _ _ _ _ _ WA) as (e0 & e1 & e2 & e3 & e4 & e5 & EE). rewrite EE in RG. unfold turned, rev_neg in RG.
    rewrite <- (map_length degToRad). destruct (ik_rev (sv_ik s)).
    - rewrite <- (map_length Ropp), <- rev_length. destruct (rev (map Ropp (map degToRad q))) as [|t0 [|t1 [|t2 [|t3 [|t4 [|t5 [|]]]]]]]; cbn in RG; try contradiction. reflexivity.
    - destruct (map degToRad q) as [|t0 [|t1 [|t2 [|t3 [|t4 [|t5 [|]]]]]]]; cbn in RG; try contradiction. reflexivity. }
  destruct (loop_near q q f WI LQ RG FK RL) as (qd & s' & A & B & W & D). rewrite displacement_same in D.
  assert (E : map degToRad q = map degToRad qd).
  { apply displacement_0; [|exact D]. destruct WI as (L1 & _), W as (L2 & _). congruence. }
  exists s'. split; [exact A|]. rewrite <- (radians_back q) at 2. rewrite E, radians_back. exact B.
Qed.
End Back.
