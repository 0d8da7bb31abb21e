(** What the positions sent by the example do. *)
From Coq Require Import QArith Reals Qreals Lra Psatz List Bool Lia Arith.
From Verif Require Import Kdl KdlFacts KdlRot KdlRotFacts Screw ScrewFacts Trig TrigFacts Subproblems SubproblemFacts SubproblemFacts2 SubproblemFacts3 IkProblem IkSpec IkProblemFacts IkProblemFacts2 IkProblemFacts3 Selector SelectorFacts
  Builder BuilderSpec BuilderRun BuilderRunFacts KinRep KdlSolverFacts IkPoseSpec IkPoseFacts IkPoseFacts2 IkPoseFacts3 IkPoseFacts4 IkPoseArms IkPoseExamples SolverLoopFacts Follow FollowSpec FollowFacts FollowFacts2 FollowFacts3.
Import ListNotations.
Open Scope R_scope.
Local Notation S := Datatypes.S.

Lemma there_back q : map degToRad (map radToDeg q) = q.
Proof. rewrite map_map. rewrite <- (map_id q) at 2. apply map_ext. intro a. unfold degToRad, radToDeg. field. pose proof PI_RGT_0. lra. Qed.
Lemma back_there q : map radToDeg (map degToRad q) = q.
Proof. rewrite map_map. rewrite <- (map_id q) at 2. apply map_ext. intro a. unfold degToRad, radToDeg. field. pose proof PI_RGT_0. lra. Qed.
Lemma on_line_rigid start l : rigid start -> rigid (on_line start l).
Proof. intro H. exact H. Qed.

Section Run.
Variables (fuel : nat) (draws q : list R) (limits : nat -> option (R * R)) (ok : bool) (f : follower) (r w x y : vec) (maxVel duration : R) (ins : list (R * option (list R))).
Hypotheses (PR : prepare fuel draws q limits ok = Returns (Some f)) (WF : wrist_follower f r w x y) (PV : 0 < maxVel) (PD : 0 < duration) (SX : six_values ins).

Theorem run_defined : exists out, cycles maxVel duration f ins = Some out /\ map fst out = map fst ins.
Proof.
  destruct (run_facts _ _ _ _ _ _ _ _ _ _ _ _ _ PR WF PV PD SX) as (lo & hi & out & _ & C & L & H). exists out. split; [exact C|].
  apply nth_ext with (d := 0) (d' := 0); rewrite !map_length; [exact L|]. intros n LN.
  destruct (nth_error ins n) as [[t rd]|] eqn:N; [|apply nth_error_None in N; lia]. destruct (H n t rd N) as (rep & N' & _).
  rewrite (nth_error_nth (map fst out) n 0 (x := t)) by (apply map_nth_error with (f := fst) in N'; exact N').
  rewrite (nth_error_nth (map fst ins) n 0 (x := t)) by (apply map_nth_error with (f := fst) in N; exact N). reflexivity.
Qed.
Lemma reported out k t rep : cycles maxVel duration f ins = Some out -> nth_error out k = Some (t, rep) ->
  exists lo hi reading, all_limits limits (seq 0 6) = Some (lo, hi) /\ nth_error ins k = Some (t, reading) /\ cycle_facts maxVel duration lo hi f t reading rep.
Proof.
  intros C N. destruct (run_facts _ _ _ _ _ _ _ _ _ _ _ _ _ PR WF PV PD SX) as (lo & hi & out' & AL & C' & L & H). assert (out' = out) as -> by congruence.
  assert (LK : (k < length ins)%nat) by (rewrite <- L; apply nth_error_Some; congruence).
  destruct (nth_error ins k) as [[u rd]|] eqn:NI; [|apply nth_error_None in NI; lia]. destruct (H k u rd NI) as (rep' & N' & CF). rewrite N in N'. injection N' as <- <-.
  exists lo, hi, rd. auto.
Qed.
(** where the tool is put *)
Theorem on_the_line : let T := Rmax duration (quickest maxVel (2 / 10) way_length) in
  exists l : R -> R, (forall t, t <= 0 -> l t = 0) /\ (forall t, T <= t -> l t = 1) /\ (forall t, 0 <= l t <= 1) /\ (forall u v, u <= v -> l u <= l v) /\
  forall out k t rep refs, cycles maxVel duration f ins = Some out -> nth_error out k = Some (t, rep) -> warned rep = false -> sent rep = Some refs ->
    exists g, evaluate left_arm (map degToRad refs) = Some g /\ rigid g /\ forall a b c,
      let z := combination w (vsub x w) (vsub y w) a b c in let target := on_line (fo_start f) (l t) in
      dist (carried (fo_poe f) (if fo_rev f then finv g else g) z) (carried (fo_poe f) (if fo_rev f then finv target else target) z) <= wrist_bound (exps (fo_poe f)) r w x y a b c.
Proof.
  intro T. destruct (prepared _ _ _ _ _ _ PR) as (_ & _ & EV & BD & _). pose proof (start_rigid _ _ EV) as RS. destruct WF as [WA WS].
  destruct (the_line (fo_start f) maxVel duration RS PV PD) as (l & LI & L0 & L1 & L01 & LV & _). exists l.
  split; [exact L0|]. split; [exact L1|]. split; [exact L01|]. split.
  { intros u v H. specialize (LV u v H). pose proof way_length_bounds. nra. }
  intros out k t rep refs C N NW SE. destruct (reported out k t rep C N) as (lo & hi & rd & _ & _ & target & exact & cands & AL & SV & WR & _ & _ & RF & _).
  rewrite LI in AL. assert (target = on_line (fo_start f) (l t)) as -> by congruence. destruct (RF refs SE) as (c & IC & -> & _). rewrite there_back.
  rewrite NW in WR. destruct exact; [|discriminate].
  exact (built_sound fuel draws left_arm (fo_poe f) (fo_steps f) (fo_rev f) r w x y (on_line (fo_start f) (l t)) left_ok BD WA WS cands c (on_line_rigid _ _ RS) SV IC).
Qed.
(** half a turn at most *)
Theorem half_turn out k t rep refs : cycles maxVel duration f ins = Some out -> nth_error out k = Some (t, rep) -> sent rep = Some refs ->
  length refs = 6%nat /\ (forall v, In v refs -> -180 <= v <= 180) /\
  forall i v lo hi, nth_error refs i = Some v -> limits i = Some (lo, hi) -> lo - kdl_eps <= degToRad v <= hi + kdl_eps.
Proof.
  intros C N SE. destruct (reported out k t rep C N) as (lo & hi & rd & AL & _ & target & exact & cands & _ & SV & WR & RG & _ & RF & _).
  destruct (RF refs SE) as (c & IC & -> & WI). destruct (RG c IC) as [L6 B]. rewrite map_length. split; [exact L6|]. pose proof PI_RGT_0 as PP. split.
  - intros v I. apply in_map_iff in I. destruct I as (u & <- & J). specialize (B u J). unfold radToDeg.
    assert (Q : 0 < 180 / PI) by (apply Rmult_lt_0_compat; [lra|apply Rinv_0_lt_compat; exact PP]).
    split; [apply Rle_trans with (- PI * (180 / PI)); [right; field; lra|apply Rmult_le_compat_r; lra]|apply Rle_trans with (PI * (180 / PI)); [apply Rmult_le_compat_r; lra|right; field; lra]].
  - intros i v l h NV LI. destruct (limits_spec _ _ _ _ AL) as (E1 & E2 & LS). rewrite seq_length in E1, E2.
    rewrite nth_error_map in NV. destruct (nth_error c i) as [u|] eqn:NC; [|discriminate]. cbn in NV. injection NV as <-.
    assert (LT : (i < 6)%nat) by (rewrite <- L6; apply nth_error_Some; congruence).
    assert (SQ : nth_error (seq 0 6) i = Some i) by (do 6 (destruct i as [|i]; [reflexivity|]); lia).
    destruct (LS i i SQ) as (l' & h' & EL & N1 & N2). rewrite LI in EL. injection EL as <- <-.
    replace (degToRad (radToDeg u)) with u by (unfold degToRad, radToDeg; field; lra). destruct WI as (_ & _ & WI). exact (WI i u l h NC N1 N2).
Qed.
(** limits that leave half a turn each way *)
Theorem always_sent : (forall i lo hi, (i < 6)%nat -> limits i = Some (lo, hi) -> lo <= - PI /\ PI <= hi) ->
  forall out k t rep g, cycles maxVel duration f ins = Some out -> nth_error out k = Some (t, rep) -> nth_error ins k = Some (t, Some g) -> exists refs, sent rep = Some refs.
Proof.
  intros WL out k t rep g C N NI. destruct (reported out k t rep C N) as (lo & hi & rd & AL & NI' & target & exact & cands & _ & SV & WR & RG & _ & _ & SN).
  rewrite NI in NI'. injection NI' as <-. apply (SN g eq_refl). intros c IC. destruct (RG c IC) as [L6 B]. destruct (limits_spec _ _ _ _ AL) as (E1 & E2 & LS). rewrite seq_length in E1, E2.
  split; [congruence|]. split; [congruence|]. intros i v l h NV N1 N2. assert (LT : (i < 6)%nat) by (rewrite <- L6; apply nth_error_Some; congruence).
  assert (SQ : nth_error (seq 0 6) i = Some i) by (do 6 (destruct i as [|i]; [reflexivity|]); lia).
  destruct (LS i i SQ) as (l' & h' & EL & M1 & M2). rewrite N1 in M1. rewrite N2 in M2. injection M1 as <-. injection M2 as <-.
  destruct (WL i l h LT EL). pose proof (B v (nth_error_In _ _ NV)). pose proof kdl_eps_pos. lra.
Qed.
(** limits whose numbers are all beyond half a turn in radians *)
Theorem never_sent i lo hi : (i < 6)%nat -> limits i = Some (lo, hi) -> PI + kdl_eps < lo \/ hi < - PI - kdl_eps ->
  forall out k t rep, cycles maxVel duration f ins = Some out -> nth_error out k = Some (t, rep) -> sent rep = None.
Proof.
  intros LT LI BE out k t rep C N. destruct (sent rep) as [refs|] eqn:SE; [|reflexivity]. exfalso.
  destruct (half_turn out k t rep refs C N SE) as (L6 & _ & H).
  destruct (reported out k t rep C N) as (l & h & rd & AL & _ & target & exact & cands & _ & SV & WR & RG & _ & RF & _). destruct (RF refs SE) as (c & IC & -> & _). destruct (RG c IC) as [L B].
  destruct (nth_error c i) as [u|] eqn:NC; [|apply nth_error_None in NC; lia].
  specialize (H i (radToDeg u) lo hi). rewrite nth_error_map, NC in H. specialize (H eq_refl LI).
  replace (degToRad (radToDeg u)) with u in H by (pose proof PI_RGT_0; unfold degToRad, radToDeg; field; lra). specialize (B u (nth_error_In _ _ NC)). lra.
Qed.
End Run.

(** *** the first positions are those of the robot *)
Theorem no_jump fuel draws q limits ok f r w x y maxVel duration t ins : prepare fuel draws q limits ok = Returns (Some f) -> wrist_follower f r w x y -> 0 < maxVel -> 0 < duration ->
  six_values ins -> t <= 0 ->
  regular (exps (fo_poe f)) r w x (if fo_rev f then rev_neg (map degToRad q) else map degToRad q) ->
  (forall i v lo hi, nth_error q i = Some v -> limits i = Some (lo, hi) -> lo <= degToRad v <= hi) ->
  exists warn rest, cycles maxVel duration f ((t, Some q) :: ins) = Some ((t, Rep warn (Some q)) :: rest).
Proof.
  intros PR WF PV PD SX T0 RG WL. destruct (prepared _ _ _ _ _ _ PR) as (L6 & _ & EV & BD & lo & hi & SE & AL). pose proof (start_rigid _ _ EV) as RS. destruct WF as [WA WS].
  assert (SX' : six_values ((t, Some q) :: ins)).
  { intros u g [E|I]; [injection E as _ <-; exact L6|exact (SX u g I)]. }
  destruct (run_defined fuel draws q limits ok f r w x y maxVel duration _ PR (conj WA WS) PV PD SX') as (out & C & _). rewrite C.
  cbn [cycles] in C. destruct (cycle maxVel duration f t (Some q)) as [[rep f']|] eqn:CY; [|discriminate].
  destruct (cycles maxVel duration f' ins) as [rest|]; [|discriminate]. injection C as <-. exists (warned rep), rest. do 3 f_equal.
  enough (sent rep = Some q) by (destruct rep; cbn in *; congruence).
  unfold cycle in CY. destruct (the_line (fo_start f) maxVel duration RS PV PD) as (l & LI & L0 & _). rewrite LI, (L0 t T0) in CY.
  replace (on_line (fo_start f) 0) with (fo_start f) in CY by (unfold on_line; destruct (fo_start f) as [m v]; cbn [fM fp]; f_equal; apply vec_eq; cbn; ring).
  destruct (built_found fuel draws left_arm (fo_poe f) (fo_steps f) (fo_rev f) r w x y (fo_start f) left_ok BD WA WS _ EV RG) as (flag & cands & SV & IQ). rewrite SV in CY.
  destruct (limits_spec _ _ _ _ AL) as (E1 & E2 & LS). rewrite seq_length in E1, E2.
  destruct (solved fuel draws (fo_poe f) (fo_steps f) (fo_rev f) r w x y lo hi BD WA WS E1 E2 (fo_start f)) as (ex & cs & S1 & _ & S2). rewrite SV in S1. injection S1 as <- <-.
  rewrite SE in CY. destruct (first_use lo hi cands (map degToRad q)) as (b & s1 & CF & BW & s2 & FL & CH).
  { intros c I. destruct (S2 c I) as [-> _]. auto. } { rewrite map_length. congruence. }
  assert (WQ : within lo hi (map degToRad q)).
  { split; [rewrite map_length; congruence|]. split; [rewrite map_length; congruence|]. intros i v lw hg NV N1 N2.
    rewrite nth_error_map in NV. destruct (nth_error q i) as [u|] eqn:NQ; [|discriminate]. cbn in NV. injection NV as <-.
    assert (LT : (i < 6)%nat) by (rewrite <- L6; apply nth_error_Some; congruence).
    assert (SQ : nth_error (seq 0 6) i = Some i) by (do 6 (destruct i as [|i]; [reflexivity|]); lia).
    destruct (LS i i SQ) as (l' & h' & EL & M1 & M2). rewrite N1 in M1. rewrite N2 in M2. injection M1 as <-. injection M2 as <-.
    pose proof (WL i u lw hg NQ EL). pose proof kdl_eps_pos. lra. }
  assert (b = true) as -> by (apply BW; eauto). rewrite CF, FL in CY. destruct (CH eq_refl) as (c & RP & j & NJ & _ & MIN). rewrite RP in CY.
  destruct (Nat.ltb _ _); [discriminate|]. injection CY as <- _. cbn [sent]. f_equal.
  apply In_nth_error in IQ. destruct IQ as (k & NK). specialize (MIN k _ NK WQ). rewrite displacement_same in MIN.
  assert (D : displacement (map degToRad q) c <= 0) by lra. apply displacement_0 in D.
  - rewrite <- D. apply back_there.
  - rewrite map_length, L6. symmetry. apply S2. eapply nth_error_In. exact NJ.
Qed.

(** *** the poses asked *)
Theorem asked_speed fuel draws q limits ok f maxVel duration u v fu fv : prepare fuel draws q limits ok = Returns (Some f) -> 0 < maxVel -> 0 < duration ->
  along (fo_start f) maxVel duration u = Some fu -> along (fo_start f) maxVel duration v = Some fv -> fM fu = fM fv /\ dist (fp fu) (fp fv) <= maxVel * Rabs (u - v).
Proof.
  intros PR PV PD AU AV. destruct (prepared _ _ _ _ _ _ PR) as (_ & _ & EV & _). pose proof (start_rigid _ _ EV) as RS.
  destruct (the_line (fo_start f) maxVel duration RS PV PD) as (l & LI & _ & _ & _ & LV & _). rewrite LI in AU, AV. injection AU as <-. injection AV as <-.
  split; [reflexivity|]. unfold dist, on_line. cbn [fp].
  assert (E : norm (vsub (vadd (fp (fo_start f)) (vscale (l u) (V (15 / 100) (1 / 10) (1 / 10)))) (vadd (fp (fo_start f)) (vscale (l v) (V (15 / 100) (1 / 10) (1 / 10))))) = Rabs (l u - l v) * way_length).
  { transitivity (norm (vscale (l u - l v) (V (15 / 100) (1 / 10) (1 / 10)))); [f_equal; apply vec_eq; cbn; ring|]. rewrite norm_scale. f_equal.
    unfold way_length, norm. f_equal. unfold dot. cbn. field. }
  rewrite E. pose proof way_length_bounds as WB. destruct (Rle_dec u v) as [H|H].
  - specialize (LV u v H). rewrite (Rabs_left1 (u - v)) by lra. rewrite Rabs_left1 by nra. lra.
  - assert (H' : v <= u) by lra. specialize (LV v u H'). rewrite (Rabs_pos_eq (u - v)) by lra. rewrite Rabs_pos_eq by nra. lra.
Qed.
(** distance from the pose asked at [t] to the goal *)
Theorem remaining fuel draws q limits ok f maxVel duration t ft : prepare fuel draws q limits ok = Returns (Some f) -> 0 < maxVel -> 0 < duration -> quickest maxVel (2 / 10) way_length <= duration ->
  along (fo_start f) maxVel duration t = Some ft -> fM ft = fM (goal (fo_start f)) /\
  (duration <= t -> fp ft = fp (goal (fo_start f))) /\ (t <= duration -> dist (fp ft) (fp (goal (fo_start f))) <= / 10 * ((duration - t) * (duration - t))).
Proof.
  intros PR PV PD QK AT. destruct (prepared _ _ _ _ _ _ PR) as (_ & _ & EV & _). pose proof (start_rigid _ _ EV) as RS.
  destruct (the_line (fo_start f) maxVel duration RS PV PD) as (l & LI & _ & L1 & L01 & _ & LB). rewrite LI in AT. injection AT as <-. rewrite Rmax_left in L1, LB by exact QK.
  split; [reflexivity|]. split.
  - intro H. rewrite (L1 t H). unfold on_line, goal. cbn [fp]. f_equal. apply vec_eq; cbn; ring.
  - intro H. eapply Rle_trans; [|exact (LB t H)]. right. unfold dist, on_line, goal. cbn [fp].
    transitivity (norm (vscale (l t - 1) (V (15 / 100) (1 / 10) (1 / 10)))); [f_equal; apply vec_eq; cbn; ring|]. rewrite norm_scale. rewrite Rabs_left1 by (specialize (L01 t); lra).
    replace (- (l t - 1)) with (1 - l t) by ring. f_equal. unfold way_length, norm. f_equal. unfold dot. cbn. field.
Qed.
