(** Runs of the example that go wrong. *)
From Coq Require Import QArith Reals Qreals Lra Psatz List Bool Lia Arith.
From Verif Require Import Kdl KdlFacts KdlRot KdlRotFacts Screw ScrewFacts Trig TrigFacts Subproblems SubproblemSpec2 SubproblemFacts SubproblemFacts2 SubproblemFacts3 IkProblem IkSpec IkProblemFacts IkProblemFacts2 IkProblemFacts3 Selector SelectorFacts
  Builder BuilderSpec BuilderRun BuilderRunFacts KinRep KdlSolverFacts IkPoseSpec IkPoseFacts IkPoseFacts2 IkPoseFacts3 IkPoseFacts4 IkPoseArms IkPoseExamples SolverLoopFacts Follow FollowSpec FollowFacts FollowFacts2 FollowFacts3 FollowFacts4 FollowExamples.
Import ListNotations.
Open Scope R_scope.
Local Notation S := Datatypes.S.

(** limits of half a turn, but for the elbow *)
Definition some_limits (lo hi : R) (i : nat) : R * R := if Nat.eqb i 3 then (lo, hi) else (-180, 180).
Lemma some_inside lo hi a b c d e f : lo <= d <= hi -> -180 <= a <= 180 -> -180 <= b <= 180 -> -180 <= c <= 180 -> -180 <= e <= 180 -> -180 <= f <= 180 ->
  inside_limits (fun i => Some (some_limits lo hi i)) [a; b; c; d; e; f].
Proof.
  intros A B C D E F i x l h N L. assert (K : some_limits lo hi i = (l, h)) by congruence. do 6 (destruct i as [|i]; [cbn in N, K; injection N as <-; injection K as <- <-; assumption|]). destruct i; discriminate.
Qed.
Lemma wide lo hi : lo <= - 4 -> 4 <= hi -> forall i l h, (i < 6)%nat -> Some (some_limits lo hi i) = Some (l, h) -> l <= - PI /\ PI <= h.
Proof. intros A B i l h _. pose proof PI_4. unfold some_limits. destruct (Nat.eqb i 3); intro E; injection E as <- <-; lra. Qed.

(** one reading *)
Lemma one_value t q : length q = 6%nat -> six_values [(t, Some q)].
Proof. intros L u g [E|[]]. injection E as _ <-. exact L. Qed.
Lemma one_cycle_run lo hi q start t V D : lo <= -4 -> 4 <= hi -> length q = 6%nat -> evaluate left_arm (map degToRad q) = Some start -> 0 < V -> 0 < D ->
  exists rep refs target exact cands c, cycles V D (l_follower (some_limits lo hi) start) [(t, Some q)] = Some [(t, rep)] /\ sent rep = Some refs /\ warned rep = negb exact /\
    along start V D t = Some target /\ ik_solve lp (map sub_step lss) true target = Some (exact, cands) /\ In c cands /\ length c = 6%nat /\ refs = map radToDeg c.
Proof.
  intros LO HI L EV PV PD. pose proof (l_prepared (some_limits lo hi) q start L EV) as PR. pose proof (l_wrist (some_limits lo hi) start) as WF.
  destruct (run_defined _ _ _ _ _ _ _ _ _ _ V D _ PR WF PV PD (one_value t q L)) as (out & C & MF).
  destruct out as [|[u rep] [|]]; try discriminate. injection MF as ->.
  destruct (always_sent _ _ _ _ _ _ _ _ _ _ V D _ PR WF PV PD (one_value t q L) (wide lo hi LO HI) _ 0 t rep q C eq_refl eq_refl) as (refs & SE).
  destruct (reported _ _ _ _ _ _ _ _ _ _ V D _ PR WF PV PD (one_value t q L) _ 0 t rep C eq_refl) as (lo' & hi' & rd & _ & _ & target & exact & cands & A1 & A2 & A3 & A4 & _ & A5 & _).
  destruct (A5 refs SE) as (c & IC & E & _). destruct (A4 c IC) as [L6 _]. exists rep, refs, target, exact, cands, c. auto 10.
Qed.
Lemma ten_seconds : Rmax 10 (quickest (5 / 100) (2 / 10) way_length) = 10.
Proof.
  pose proof way_length_bounds as WB. apply Rmax_left. unfold quickest. rewrite (proj2 (Rleb_false _ _)) by lra. lra.
Qed.
Lemma at_the_end start t : rigid start -> 10 <= t -> along start (5 / 100) 10 t = Some (goal start).
Proof.
  intros RS H. destruct (the_line start (5 / 100) 10 RS ltac:(lra) ltac:(lra)) as (l & LI & _ & L1 & _). rewrite ten_seconds in L1. rewrite LI, (L1 t H). f_equal. unfold on_line, goal. f_equal. f_equal.
  apply vec_eq; cbn; ring.
Qed.

(** *** the goal out of reach *)
Theorem out_of_reach : exists fuel draws q limits f r w x y t rep refs g target,
  inside_limits limits q /\ prepare fuel draws q limits true = Returns (Some f) /\ wrist_follower f r w x y /\
  cycles (5 / 100) 10 f [(t, Some q)] = Some [(t, rep)] /\ sent rep = Some refs /\
  evaluate left_arm (map degToRad refs) = Some g /\ along (fo_start f) (5 / 100) 10 t = Some target /\ 1 / 10 < dist (fp g) (fp target).
Proof.
  destruct (l_start [-90; 0; 0; 0; 0; 0] eq_refl) as (start & EV).
  destruct (one_cycle_run (-180) 180 [-90; 0; 0; 0; 0; 0] start 20 (5 / 100) 10) as (rep & refs & target & exact & cands & c & C & SE & _ & AL & _ & _ & L6 & RF); [lra|lra|reflexivity|exact EV|lra|lra|].
  assert (G : exists g, evaluate left_arm c = Some g) by (unfold evaluate; rewrite left_six, L6; cbn [Nat.eqb]; eauto). destruct G as (g & G).
  exists 1000%nat, l_draws, [-90; 0; 0; 0; 0; 0], (fun i => Some (some_limits (-180) 180 i)), (l_follower (some_limits (-180) 180) start), lr, lw, lx, ly, 20, rep, refs, g, target.
  split; [apply some_inside; lra|]. split; [apply l_prepared; [reflexivity|exact EV]|]. split; [apply l_wrist|]. split; [exact C|]. split; [exact SE|].
  split; [rewrite RF, there_back; exact G|]. split; [exact AL|].
  rewrite (at_the_end start 20 (start_rigid _ _ EV) ltac:(lra)) in AL. assert (target = goal start) as -> by congruence.
  pose proof (reach c g L6 G) as RC. unfold goal. cbn [fp]. rewrite (forward_start start EV).
  set (p := vadd _ _). assert (PS : 78401 / 100000 <= dist p shoulder).
  { unfold dist. apply Rsqr_incr_0; [|lra|apply norm_nonneg]. unfold Rsqr. rewrite norm_sqr. unfold p, shoulder, dot. cbn [vx vy vz vadd vsub]. lra. }
  pose proof (dist_tri p (fp g) shoulder). rewrite (dist_sym p (fp g)) in H. lra.
Qed.

(** *** the elbow of the candidates *)
Lemma elbow_slot target flag cands q : ik_solve lp (map sub_step lss) true target = Some (flag, cands) -> In q cands ->
  exists f0 ls n th, pk3_solve 2 l2 lw lr (IkSpec.goal lp true target) fid = Some (f0, ls) /\ nth_error ls n = Some [(2%nat, th)] /\ nth_error q 3 = Some (- th).
Proof.
  intros SV I. unfold lss in SV.
  assert (E : map sub_step (wrist_steps (exps lp) lr lw lx ly) = map fst (problem_steps (wrist_steps (exps lp) lr lw lx ly))) by (unfold problem_steps; now rewrite map_map). rewrite E in SV.
  pose proof (wrist_steps_ok l0 l1 l2 l3 l4 l5 lt lr lw lx ly) as OK.
  pose proof (wrist_in_order l0 l1 l2 l3 l4 l5 lt lr lw lx ly) as IO.
  destruct (solve_own lp true target lp_ok _ _ _ OK ltac:(discriminate) IO SV) as (bs & FB & LB & DV).
  apply In_nth_error in I. destruct I as (c & N). specialize (DV c q N).
  match type of DV with derived _ _ _ _ _ ?ch _ _ => assert (LK : exists k0 k1 k2 k3, ch = [k0; k1; k2; k3]) by (do 4 eexists; reflexivity) end.
  destruct LK as (k0 & k1 & k2 & k3 & LK). rewrite LK in DV. clear LK.
  apply (wrist_path l0 l1 l2 l3 l4 l5 lt lr lw lx ly true target) in DV. cbv zeta in DV.
  destruct DV as (g0 & m0 & loc0 & g1 & m1 & loc1 & g2 & m2 & loc2 & g3 & m3 & loc3 & V0 & M0 & V1 & M1 & V2 & M2 & V3 & M3 & -> & _).
  fold lp in V0, V1, V2, V3. 
  assert (K : forall s ids rhs h fl locs n loc, step_ok s ids -> st_solve s rhs h = Some (fl, locs) -> nth_error locs n = Some loc -> map fst loc = ids).
  { intros s ids rhs h fl locs n loc (_ & _ & SO) SS NN. destruct (SO _ _ _ _ SS) as [_ X]. apply X. eapply nth_error_In. exact NN. }
  pose proof (K _ _ _ _ _ _ _ _ (pk3_ok 2 l2 lw lr) V0 M0) as F0. pose proof (K _ _ _ _ _ _ _ _ (pk2_ok 0 1 l0 l1 lw lr) V1 M1) as F1.
  pose proof (K _ _ _ _ _ _ _ _ (pk2_ok 3 4 l3 l4 lx lw) V2 M2) as F2. pose proof (K _ _ _ _ _ _ _ _ (pk1_ok 5 l5 ly) V3 M3) as F3.
  destruct loc0 as [|[i th] [|]]; try discriminate. injection F0 as ->.
  destruct loc1 as [|[a1 v1] [|[b1 w1] [|]]]; try discriminate. injection F1 as -> ->.
  destruct loc2 as [|[a2 v2] [|[b2 w2] [|]]]; try discriminate. injection F2 as -> ->.
  destruct loc3 as [|[a3 v3] [|]]; try discriminate. injection F3 as ->.
  exists g0, m0, k0, th. split; [exact V0|]. split; [exact M0|]. reflexivity.
Qed.
(** the shoulder seen from the tool, when the tool is in a pose *)
Lemma goal_w target : fapp (IkSpec.goal lp true target) lw = fapp (finv target) shoulder.
Proof.
  unfold IkSpec.goal. rewrite fapp_fmul. f_equal. change (tool lp) with lt. unfold lt, lw, shoulder, finv, fapp. apply vec_eq; cbn; field.
Qed.
Lemma goal_dist target : rigid target -> dist (fapp (IkSpec.goal lp true target) lw) lr = dist shoulder (fapp target lr).
Proof. intro R. rewrite goal_w. rewrite <- (fapp_inv_l target lr R) at 1. apply dist_rigid. apply rigid_inv. exact R. Qed.

(** *** limits in degrees taken as radians *)
Theorem limits_exceeded : exists fuel draws q limits f r w x y t rep refs,
  inside_limits limits q /\ prepare fuel draws q limits true = Returns (Some f) /\ wrist_follower f r w x y /\
  cycles (5 / 100) 10 f [(t, Some q)] = Some [(t, rep)] /\ sent rep = Some refs /\ ~ inside_limits limits refs.
Proof.
  destruct (l_start [0; 0; 0; 90; 0; 0] eq_refl) as (start & EV).
  destruct (one_cycle_run (-90) 90 [0; 0; 0; 90; 0; 0] start 20 (5 / 100) 10) as (rep & refs & target & exact & cands & c & C & SE & _ & AL & SV & IC & L6 & RF); [lra|lra|reflexivity|exact EV|lra|lra|].
  exists 1000%nat, l_draws, [0; 0; 0; 90; 0; 0], (fun i => Some (some_limits (-90) 90 i)), (l_follower (some_limits (-90) 90) start), lr, lw, lx, ly, 20, rep, refs.
  split; [apply some_inside; lra|]. split; [apply l_prepared; [reflexivity|exact EV]|]. split; [apply l_wrist|]. split; [exact C|]. split; [exact SE|].
  pose proof (start_rigid _ _ EV) as RS. rewrite (at_the_end start 20 RS ltac:(lra)) in AL. assert (target = goal start) as -> by congruence.
  destruct (elbow_slot _ _ _ _ SV IC) as (f0 & ls & n & th & PK & N & NQ).
  assert (RG : rigid (goal start)) by exact RS.
  assert (GW : fapp (goal start) lr = V (- (65 / 1000)) (44692 / 100000) (26919 / 100000)).
  { transitivity (vadd (fapp start lr) (V (15 / 100) (1 / 10) (1 / 10))); [unfold goal, fapp; cbn [fM fp]; apply vec_eq; cbn; ring|]. rewrite (elbow_start start EV). apply vec_eq; cbn [vx vy vz vadd]; field. }
  assert (D2 : dist shoulder (fapp (goal start) lr) * dist shoulder (fapp (goal start) lr) = 666705801 / 10000000000).
  { rewrite GW. unfold dist. rewrite norm_sqr. unfold shoulder, dot. cbn [vx vy vz vsub]. field. }
  destruct (elbow_angle _ _ _ _ _ PK N) as (th' & E & OUT); [rewrite (goal_dist _ RG), D2; lra|rewrite (goal_dist _ RG), D2; lra|].
  injection E as <-. intro INS. specialize (INS 3%nat (radToDeg (- th)) (-90) 90). rewrite RF, nth_error_map, NQ in INS. specialize (INS eq_refl eq_refl).
  pose proof PI_RGT_0 as PP. unfold radToDeg in INS. assert (Q : - th * (180 / PI) * (PI / 180) = - th) by (field; lra).
  assert (W : - (PI / 2) <= - th <= PI / 2); [|lra].
  rewrite <- Q. assert (0 < PI / 180) by lra. split.
  - replace (- (PI / 2)) with (-90 * (PI / 180)) by field. apply Rmult_le_compat_r; lra.
  - replace (PI / 2) with (90 * (PI / 180)) by field. apply Rmult_le_compat_r; lra.
Qed.

(** *** less time than needed *)
Theorem too_short : exists fuel draws q limits f r w x y, prepare fuel draws q limits true = Returns (Some f) /\ wrist_follower f r w x y /\
  forall t, t <= 2 -> exists target, along (fo_start f) (5 / 100) 2 t = Some target /\ 1 / 10 < dist (fp target) (fp (goal (fo_start f))).
Proof.
  destruct (l_start [0; 0; 0; 90; 0; 0] eq_refl) as (start & EV). pose proof (start_rigid _ _ EV) as RS.
  exists 1000%nat, l_draws, [0; 0; 0; 90; 0; 0], (fun i => Some (some_limits (-180) 180 i)), (l_follower (some_limits (-180) 180) start), lr, lw, lx, ly.
  split; [apply l_prepared; [reflexivity|exact EV]|]. split; [apply l_wrist|]. cbn [fo_start l_follower]. intros t H.
  destruct (the_line start (5 / 100) 2 RS ltac:(lra) ltac:(lra)) as (l & LI & L0 & _ & L01 & LV & _). exists (on_line start (l t)). split; [apply LI|].
  pose proof way_length_bounds as WB. assert (B : l t * way_length <= 1 / 10).
  { destruct (Rle_dec t 0) as [N|N]; [rewrite (L0 t N); lra|]. specialize (LV 0 t ltac:(lra)). rewrite (L0 0 ltac:(lra)) in LV. lra. }
  unfold dist, on_line, goal. cbn [fp].
  replace (norm _) with ((1 - l t) * way_length); [lra|].
  transitivity (norm (vscale (l t - 1) (V (15 / 100) (1 / 10) (1 / 10)))); [|f_equal; apply vec_eq; cbn; ring]. rewrite norm_scale. rewrite Rabs_left1 by (specialize (L01 t); lra).
  replace (- (l t - 1)) with (1 - l t) by ring. f_equal. unfold way_length, norm. f_equal. unfold dot. cbn. field.
Qed.

(** *** a robot with seven axes *)
Theorem seven_axes q : length q = 7%nat -> prepare 1000 l_draws q (fun i => Some (some_limits (-180) 180 i)) true = Undefined.
Proof.
  intro L. unfold prepare. rewrite left_six, L. change (Nat.ltb 7 6) with false. cbv iota zeta.
  destruct (l_start (firstn 6 q)) as (st & ->); [rewrite firstn_length, L; reflexivity|]. rewrite l_built. reflexivity.
Qed.
Theorem six_axes fuel draws q limits ok f : prepare fuel draws q limits ok = Returns (Some f) -> length q = 6%nat.
Proof. intro H. exact (proj1 (prepared _ _ _ _ _ _ H)). Qed.

(** *** a joint whose limits are both on one side *)
Theorem stuck : exists fuel draws q limits f r w x y, inside_limits limits q /\ prepare fuel draws q limits true = Returns (Some f) /\ wrist_follower f r w x y /\
  forall maxVel duration ins, 0 < maxVel -> 0 < duration -> six_values ins -> exists out, cycles maxVel duration f ins = Some out /\ forall k t rep, nth_error out k = Some (t, rep) -> sent rep = None.
Proof.
  destruct (l_start [0; 0; 0; 90; 0; 0] eq_refl) as (start & EV).
  exists 1000%nat, l_draws, [0; 0; 0; 90; 0; 0], (fun i => Some (some_limits 5 100 i)), (l_follower (some_limits 5 100) start), lr, lw, lx, ly.
  pose proof (l_prepared (some_limits 5 100) [0; 0; 0; 90; 0; 0] start eq_refl EV) as PR. pose proof (l_wrist (some_limits 5 100) start) as WF.
  split; [apply some_inside; lra|]. split; [exact PR|]. split; [exact WF|]. intros V D ins PV PD SX.
  destruct (run_defined _ _ _ _ _ _ _ _ _ _ V D ins PR WF PV PD SX) as (out & C & _). exists out. split; [exact C|]. intros k t rep N.
  refine (never_sent _ _ _ _ _ _ _ _ _ _ V D ins PR WF PV PD SX 3 5 100 ltac:(lia) eq_refl _ out k t rep C N). left. pose proof PI_4. unfold kdl_eps. lra.
Qed.

(** *** the arm hanging *)
Lemma hanging_start f : evaluate left_arm (map degToRad (repeat 0 6)) = Some f -> fapp f lr = wrist.
Proof.
  cbn [map repeat]. intro EV. rewrite (left_app _ _ _ _ _ _ _ _ EV). unfold degToRad. replace (0 * (PI / 180)) with 0 by ring.
  rewrite !(no_turn _ _ _ uY), !(no_turn _ _ _ uZ), !(no_turn _ _ _ uX). unfold R0, lr, wrist; apply vec_eq; cbn; field.
Qed.
Lemma hanging_elbow G f0 ls n th : dist (fapp G lw) lr = 54401 / 100000 -> pk3_solve 2 l2 lw lr G fid = Some (f0, ls) -> nth_error ls n = Some [(2%nat, th)] -> th = PI.
Proof.
  intros DE SV N.
  assert (NU : norm (perp (V 0 0 1) (vsub (fapp fid lw) (V (305 / 1000) 0 0))) = 32901 / 100000).
  { rewrite fapp_id. unfold perp, lw, norm, dot. cbn. match goal with |- sqrt ?z = _ => replace z with ((32901 / 100000) * (32901 / 100000)) by field end. apply sqrt_square. lra. }
  assert (NV : norm (perp (V 0 0 1) (vsub lr (V (305 / 1000) 0 0))) = 215 / 1000).
  { unfold perp, lr, norm, dot. cbn. match goal with |- sqrt ?z = _ => replace z with ((215 / 1000) * (215 / 1000)) by field end. apply sqrt_square. lra. }
  unfold l2 in SV. rewrite pk3_unfold in SV; [|rewrite NU; lra|rewrite NV; lra]. rewrite NU, NV, !fapp_id, DE in SV.
  replace (dot (V 0 0 1) (vsub lw lr)) with 0 in SV by (unfold dot, lw, lr; cbn; field).
  match type of SV with context [Equal (Rabs ?z) 1] => replace z with (-1) in SV by field end.
  replace (Rabs (-1)) with 1 in SV by (rewrite Rabs_left; lra). rewrite (proj2 (Equal_true 1 1)) in SV by (rewrite Rminus_diag_eq, Rabs_R0 by reflexivity; apply kdl_eps_pos). cbn [negb andb] in SV.
  assert (RA : raw_angle (V 0 0 1) (vsub lw (V (305 / 1000) 0 0)) (vsub lr (V (305 / 1000) 0 0)) = PI).
  { unfold raw_angle. replace (dot (V 0 0 1) (cross _ _)) with (7073715 / 100000000 * sin PI) by (rewrite sin_PI; unfold cross, perp, lw, lr, dot; cbn; field).
    replace (dot _ _) with (7073715 / 100000000 * cos PI) by (rewrite cos_PI; unfold perp, lw, lr, dot; cbn; field).
    apply atan2_unique; pose proof PI_RGT_0; lra. }
  rewrite RA in SV. replace (normalizeAngle PI) with PI in SV.
  2:{ unfold normalizeAngle. rewrite Rabs_pos_eq by (pose proof PI_RGT_0; lra). now rewrite Equal_refl. }
  injection SV as <- <-. destruct n as [|[|[|n]]]; cbn in N; try discriminate; injection N as <-; reflexivity.
Qed.
Theorem jump : exists fuel draws q limits f r w x y rep refs,
  inside_limits limits q /\ prepare fuel draws q limits true = Returns (Some f) /\ wrist_follower f r w x y /\
  cycles (5 / 100) 10 f [(0, Some q)] = Some [(0, rep)] /\ sent rep = Some refs /\ exists i a b, nth_error q i = Some a /\ nth_error refs i = Some b /\ Rabs (b - a) = 180.
Proof.
  destruct (l_start (repeat 0 6) eq_refl) as (start & EV).
  destruct (one_cycle_run (-180) 180 (repeat 0 6) start 0 (5 / 100) 10) as (rep & refs & target & exact & cands & c & C & SE & _ & AL & SV & IC & L6 & RF); [lra|lra|reflexivity|exact EV|lra|lra|].
  exists 1000%nat, l_draws, (repeat 0 6), (fun i => Some (some_limits (-180) 180 i)), (l_follower (some_limits (-180) 180) start), lr, lw, lx, ly, rep, refs.
  split; [apply some_inside; lra|]. split; [apply l_prepared; [reflexivity|exact EV]|]. split; [apply l_wrist|]. split; [exact C|]. split; [exact SE|].
  pose proof (start_rigid _ _ EV) as RS.
  destruct (the_line start (5 / 100) 10 RS ltac:(lra) ltac:(lra)) as (l & LI & L0 & _). rewrite LI, (L0 0 ltac:(lra)) in AL.
  assert (target = start) as ->. { transitivity (on_line start 0); [congruence|]. destruct start as [m p]. unfold on_line. cbn [fM fp]. f_equal. destruct p. apply vec_eq; cbn; ring. }
  destruct (elbow_slot _ _ _ _ SV IC) as (f0 & ls & n & th & PK & N & NQ).
  assert (th = PI) as ->.
  { refine (hanging_elbow _ _ _ _ _ _ PK N). rewrite (goal_dist _ RS), (hanging_start start EV). unfold dist, norm, dot, shoulder, wrist. cbn [vx vy vz vsub].
    match goal with |- sqrt ?z = _ => replace z with ((54401 / 100000) * (54401 / 100000)) by field end. apply sqrt_square. lra. }
  exists 3%nat, 0, (radToDeg (- PI)). split; [reflexivity|]. split; [now rewrite RF, nth_error_map, NQ|].
  unfold radToDeg. replace (- PI * (180 / PI) - 0) with (-180) by (field; pose proof PI_RGT_0; lra). rewrite Rabs_left; lra.
Qed.

(** *** runs that meet the hypotheses of the properties *)
Definition w_limits (i : nat) : option (R * R) := Some (some_limits (-180) 180 i).
Lemma w_wide i lo hi : (i < 6)%nat -> w_limits i = Some (lo, hi) -> lo <= - PI /\ PI <= hi.
Proof. exact (wide (-180) 180 ltac:(lra) ltac:(lra) i lo hi). Qed.
Lemma bent_prepared : exists start, prepare 1000 l_draws [0; 0; 0; 90; 0; 0] w_limits true = Returns (Some (l_follower (some_limits (-180) 180) start)) /\
  wrist_follower (l_follower (some_limits (-180) 180) start) lr lw lx ly.
Proof.
  destruct (l_start [0; 0; 0; 90; 0; 0] eq_refl) as (start & EV). exists start. split; [apply l_prepared; [reflexivity|exact EV]|apply l_wrist].
Qed.
(** a cycle without warning that sends positions *)
Lemma e_run : exists q start refs, prepare 1000 l_draws q w_limits true = Returns (Some (l_follower (some_limits (-180) 180) start)) /\
  wrist_follower (l_follower (some_limits (-180) 180) start) lr lw lx ly /\ six_values [(0, Some q)] /\
  cycles (5 / 100) 10 (l_follower (some_limits (-180) 180) start) [(0, Some q)] = Some [(0, Rep false (Some refs))].
Proof.
  assert (L6 : length (map radToDeg e_q) = 6%nat) by reflexivity.
  destruct (l_start _ L6) as (start & EV).
  destruct (one_cycle_run (-180) 180 (map radToDeg e_q) start 0 (5 / 100) 10) as (rep & refs & target & exact & cands & c & C & SE & WR & AL & SV & IC & _ & RF); [lra|lra|exact L6|exact EV|lra|lra|].
  exists (map radToDeg e_q), start, refs. split; [apply l_prepared; [exact L6|exact EV]|]. split; [apply l_wrist|]. split; [apply one_value; exact L6|].
  rewrite C. pose proof (start_rigid _ _ EV) as RS.
  destruct (the_line start (5 / 100) 10 RS ltac:(lra) ltac:(lra)) as (l & LI & L0 & _). rewrite LI, (L0 0 ltac:(lra)) in AL.
  assert (target = start) as ->. { transitivity (on_line start 0); [congruence|]. destruct start as [m p]. unfold on_line. cbn [fM fp]. f_equal. destruct p. apply vec_eq; cbn; ring. }
  rewrite there_back in EV. destruct (e_reachable start EV) as (cs & SV'). assert (exact = true) by congruence. subst. cbn [negb] in WR. destruct rep as [a b]. cbn [warned sent] in *. subst. reflexivity.
Qed.
Lemma bent_regular : regular (exps lp) lr lw lx (rev_neg (map degToRad [0; 0; 0; 90; 0; 0])).
Proof.
  replace (rev_neg (map degToRad [0; 0; 0; 90; 0; 0])) with [0; 0; - (PI / 2); 0; 0; 0].
  2:{ unfold rev_neg, degToRad. cbn [map rev app]. repeat (apply (f_equal2 cons); [field|]). reflexivity. }
  cbn [regular exps lp]. split.
  { intros t I. cbn in I. pose proof set_0. pose proof set_mh. repeat destruct I as [<-|I]; auto. destruct I. }
  cbv zeta. replace (move1 l2 (- (PI / 2)) lw) with (V (305 / 1000) (- (32901 / 100000)) 0) by (unfold l2, lw; rewrite spin_z, sin_neg, cos_neg, sin_PI2, cos_PI2; apply vec_eq; cbn [vx vy vz]; field).
  unfold l1, l4. rewrite (no_turn _ _ _ uX), (no_turn _ _ _ uY).
  assert (EP : kdl_eps < 1 / 1000) by (unfold kdl_eps; lra). pose proof kdl_eps_pos as EP0.
  split; [|split; [|split; [|split; [|split]]]].
  - unfold cos_between. replace (dot _ _) with 0 by (unfold perp, dot, lr, l2; cbn; field). unfold Rdiv. rewrite Rmult_0_l, Rabs_R0. lra.
  - intros (t & Q); apply (f_equal vy) in Q; cbn in Q; lra.
  - intros (t & Q); apply (f_equal vx) in Q; cbn in Q; lra.
  - right. cbv zeta. match goal with |- _ <= ?g * ?g => replace g with (- (32901 / 100000)) by (unfold dot, cross, lr, l0; cbn; field) end. lra.
  - intros (t & Q); apply (f_equal vz) in Q; cbn in Q; lra.
  - right. cbv zeta. match goal with |- _ <= ?g * ?g => replace g with (1 / 13) by (unfold dot, cross, lw, lx, l3; cbn; field) end. lra.
Qed.
Lemma bent_inside i v lo hi : nth_error [0; 0; 0; 90; 0; 0] i = Some v -> w_limits i = Some (lo, hi) -> lo <= degToRad v <= hi.
Proof.
  intros N L. assert (K : some_limits (-180) 180 i = (lo, hi)) by (unfold w_limits in L; congruence). pose proof PI_4. pose proof PI_RGT_0. unfold degToRad.
  do 6 (destruct i as [|i]; [cbn in N, K; injection N as <-; injection K as <- <-; lra|]). destruct i; discriminate.
Qed.
Lemma ten_enough : quickest (5 / 100) (2 / 10) way_length <= 10.
Proof. pose proof (Rmax_r 10 (quickest (5 / 100) (2 / 10) way_length)) as H. rewrite ten_seconds in H. exact H. Qed.
