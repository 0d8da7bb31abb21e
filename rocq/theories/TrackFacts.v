(** Lemmas: the tool gets closer to the line that it follows. *)
From Coq Require Import Reals ZArith List Bool Lra Lia.
From Verif Require Import Kdl KdlFacts KdlRot KdlRotFacts KinRepSpec AsibotSpec LineSpec Vocab Bcc BccSpec BccKdl BccLineSpec Sys SysSpec SysFacts3 TrigFacts IkPoseFacts TrackSpec.
From Verif Require Screw KdlSolver TreeSpec BccLineFacts2 KeyboardFacts7.
Import ListNotations.
Open Scope R_scope.
Local Notation S := Datatypes.S.
Local Notation length := List.length.
Local Notation sv_chain := KdlSolver.sv_chain.

(** ** Sequences that contract *)
Lemma contract rho B e es : 0 <= rho < 1 -> 0 <= B -> 0 <= e -> each_next (fun x y => y <= rho * x + B) (e :: es) ->
  forall k, (k <= length es)%nat -> nth k (e :: es) 0 <= rho ^ k * e + B / (1 - rho).
Proof.
  intros R HB. assert (P : 0 <= B / (1 - rho)) by (apply Rmult_le_pos; [lra|left; apply Rinv_0_lt_compat; lra]).
  assert (FX : B / (1 - rho) = rho * (B / (1 - rho)) + B) by (field; lra).
  assert (G : forall es e k, each_next (fun x y => y <= rho * x + B) (e :: es) -> (k <= length es)%nat -> nth k (e :: es) 0 <= rho ^ k * (e - B / (1 - rho)) + B / (1 - rho)).
  { clear e es. intros es e k. revert es e. induction k as [|k IH]; intros es e (H & T) L; [cbn; lra|]. destruct es as [|e1 es]; [cbn in L; lia|].
    change (nth (S k) (e :: e1 :: es) 0) with (nth k (e1 :: es) 0). specialize (IH es e1 T ltac:(cbn in L; lia)).
    assert (0 <= rho ^ k) by (apply pow_le; lra). cbn [pow]. assert (e1 - B / (1 - rho) <= rho * (e - B / (1 - rho))) by lra. nra. }
  intros E N k L. specialize (G es e k N L). assert (0 <= rho ^ k) by (apply pow_le; lra). nra.
Qed.
Lemma each_map {A B} (P : B -> B -> Prop) (Q : A -> B -> Prop) (N : A -> A -> Prop) (l : list A) : (forall a, In a l -> exists b, Q a b) ->
  (forall a a' b b', In a l -> In a' l -> N a a' -> Q a b -> Q a' b' -> P b b') -> each_next N l -> exists m, Forall2 Q l m /\ each_next P m.
Proof.
  intros X. assert (Y : exists m, Forall2 Q l m).
  { induction l as [|a l IH]; [exists []; constructor|]. destruct IH as (m & M); [intros; apply X; cbn; auto|]. destruct (X a (or_introl eq_refl)) as (b & Hb). exists (b :: m). now constructor. }
  destruct Y as (m & M). intros H N0. exists m. split; [exact M|]. clear X. revert H N0. induction M as [|a b l m HQ M IH]; intros H N0; [exact I|]. destruct N0 as (N1 & N2). split.
  - destruct M as [|a' b' l m HQ' M]; [exact I|]. eapply H; eauto; cbn; auto.
  - apply IH; [|exact N2]. intros. eapply H; eauto; cbn; auto.
Qed.

(** ** One step *)
Lemma step_norm (m f v : vec) (c s : vec) h K : norm (vsub (vadd (vadd m (vscale h v)) c) (vadd (vadd f (vscale h (vadd v (vscale K (vsub m f))))) s))
  <= Rabs (1 - K * h) * norm (vsub m f) + norm c + norm s.
Proof.
  replace (vsub _ _) with (vadd (vadd (vscale (1 - K * h) (vsub m f)) c) (vneg s)) by vring.
  eapply Rle_trans; [apply norm_triangle|]. rewrite norm_neg. eapply Rplus_le_compat_r. eapply Rle_trans; [apply norm_triangle|]. rewrite norm_scale. lra.
Qed.
Lemma limit_unique f x a b : derivable_pt_lim f x a -> derivable_pt_lim f x b -> a = b.
Proof. intros A B. eapply uniqueness_limite; eauto. Qed.
Lemma velocity_same p t a b : velocity_of p t a -> velocity_of p t b -> t_vel a = t_vel b.
Proof.
  intros (A1 & A2 & A3 & _) (B1 & B2 & B3 & _). pose proof (limit_unique _ _ _ _ A1 B1). pose proof (limit_unique _ _ _ _ A2 B2). pose proof (limit_unique _ _ _ _ A3 B3).
  destruct (t_vel a), (t_vel b). cbn in *. congruence.
Qed.
(** the line departs little from what its velocity foretells *)
Lemma line_step a b D move t v h : on_line a b D move -> velocity_of move t v ->
  norm (vsub (fp (move (t + h))) (vadd (fp (move t)) (vscale h (t_vel v)))) <= 5 * (pace a b (line_time a b D) * h * (pace a b (line_time a b D) * h)).
Proof.
  intros (p & r & _ & _ & G & _ & E) V. destruct (G t) as (w & W1 & _ & _ & W2). set (k := pace a b (line_time a b D)) in *.
  assert (move = fun t => p (r t)) as EQ by (apply FunctionalExtensionality.functional_extensionality; exact E).
  rewrite EQ in *. rewrite (velocity_same _ _ _ _ V W1). eapply Rle_trans; [apply W2|]. right. field.
Qed.
(** and sets off at rest *)
Lemma rest_before f l : (forall t, t <= 0 -> f t = f 0) -> derivable_pt_lim f 0 l -> l = 0.
Proof.
  intros H D. destruct (Req_dec l 0) as [|N]; [auto|exfalso]. destruct (D (Rabs l) ltac:(apply Rabs_pos_lt; exact N)) as (dl & X). pose proof (cond_pos dl) as P.
  specialize (X (- (dl / 2)) ltac:(lra) ltac:(rewrite Rabs_Ropp, Rabs_pos_eq; lra)). rewrite (H (0 + - (dl / 2))) in X by lra.
  replace ((f 0 - f 0) / - (dl / 2) - l) with (- l) in X by (field; lra). rewrite Rabs_Ropp in X. lra.
Qed.
Lemma line_from a b D move u : on_line a b D move -> norm (vsub (fp (move u)) (fp a)) <= 5 * (pace a b (line_time a b D) * u * (pace a b (line_time a b D) * u)).
Proof.
  intros OL. pose proof OL as (p & r & (axis & angle & _ & _ & _ & ST) & (PR & _) & G & _ & E).
  assert (P0 : forall t, t <= 0 -> fp (move t) = fp a). { intros t T. rewrite E, PR, ST by exact T. cbn [fp]. destruct (fp a), (fp b). vring. }
  destruct (G 0) as (w & W1 & _). assert (move = fun t => p (r t)) as EQ by (apply FunctionalExtensionality.functional_extensionality; exact E).
  rewrite <- EQ in W1. pose proof (line_step a b D move 0 w u OL W1) as L. rewrite Rplus_0_l, (P0 0) in L by lra.
  assert (Z : t_vel w = vzero).
  { destruct W1 as (V1 & V2 & V3 & _). apply rest_before in V1; [|intros; rewrite !P0 by lra; reflexivity]. apply rest_before in V2; [|intros; rewrite !P0 by lra; reflexivity].
    apply rest_before in V3; [|intros; rewrite !P0 by lra; reflexivity]. destruct (t_vel w). cbn in *. unfold vzero. congruence. }
  rewrite Z in L. replace (vadd (fp a) (vscale u vzero)) with (fp a) in L by (destruct (fp a); vring). exact L.
Qed.

Section Chain.
Variables (d : device) (ch : chain) (pre : list event) (v : KdlSolver.solver) (c : cfg).
Hypothesis (CO : Screw.chain_ok ch) (OP : opened d ch pre v) (N : numJoints c = nr_of_joints (sv_chain v)) (OJ : one_per_joint d v).

Theorem movl_tracks fuel xd s tr s1 h s2 v1 v2 : usePosdMovl c = false -> 0 < duration s -> length xd = 6%nat -> exec (movl c fuel xd) s tr (Done true) s1 ->
  history c s1 h s2 -> Forall (fun e => lets_go_on (fst (fst e)) /\ no_tool (fst (fst e))) h ->
  Forall as_kdl (trace_of h) -> served d v tr v1 -> served d v1 (trace_of h) v2 ->
  exists g from start, joints_read (numJoints c) tr g /\ stands v g from /\ In (Now, start) tr /\
    let target := if Z.eqb (referenceFrame s) TCP_FRAME then fmul from (pose_at xd 0) else pose_at xd 0 in
    (regular_log (fM from) -> (referenceFrame s = TCP_FRAME -> regular_log (fM target)) -> measurable from target ->
     exists move, on_line from target (duration s) move /\ let k := pace from target (line_time from target (duration s)) in
     (forall u, norm (vsub (fp (move u)) (fp from)) <= 5 * (k * u * (k * u))) /\
     forall t0 ts rho hi slack, let period := IZR (cmcPeriodMs s) / 1000 in let timely h := 0 <= h <= hi /\ Rabs (1 - gain s * h / period) <= rho in
       Forall (driven h) (t0 :: ts) -> Forall (solvable d (numJoints c) v) (t0 :: ts) -> each_next (obeys (numJoints c) v timely slack) (t0 :: ts) ->
       0 <= rho < 1 -> 0 <= slack -> period <> 0 ->
       exists e0 es, Forall2 (off (numJoints c) v (num start) move) (t0 :: ts) (e0 :: es) /\
         forall i, (i <= length ts)%nat -> nth i (e0 :: es) 0 <= rho ^ i * e0 + (5 * (k * hi * (k * hi)) + slack) / (1 - rho)).
Proof.
  intros P D LX E H L AK SV1 SV2.
  destruct (movl_carries d ch pre v c CO OP N OJ fuel xd s tr s1 h s2 v1 v2 P D LX E H L AK SV1 SV2) as (g & from & start & J & SF & IN & X).
  exists g, from, start. split; [exact J|]. split; [exact SF|]. split; [exact IN|]. intros target RL RT M. destruct (X RL RT M) as (move & OL & Y). exists move. split; [exact OL|].
  change (on_line from target (duration s) move) in OL. intros k. split; [intros u; apply line_from; exact OL|]. intros t0 ts rho hi slack period timely DR SO OB RH SP PE.
  set (K := gain s * 1000 / IZR (cmcPeriodMs s)).
  (* what is known of each cycle *)
  set (Q := fun (t : list event) (x : R) => exists w a now q f vel e, In (VelocityMove w, a) t /\ In (Now, now) t /\ joints_read (numJoints c) t q /\ stands v q f /\
     velocity_of move (num now - num start) vel /\ fp (move (num now - num start)) = vadd (fp f) (t_vel e) /\ carries v q w (corrected vel K e) /\
     x = norm (vsub (fp (move (num now - num start))) (fp f))).
  rewrite Forall_forall in DR, SO.
  assert (EX : forall t, In t (t0 :: ts) -> exists x, Q t x).
  { intros t It. destruct (DR t It) as (b & w & a & Ih & Iw). destruct (Y _ _ _ _ _ Ih Iw eq_refl) as (w' & now & q & f & vel & e & _ & EW & I1 & I2 & I3 & _ & I4 & I5 & _ & I6). injection EW as <-.
    eexists. exists w, a, now, q, f, vel, e. split; [exact Iw|]. split; [exact I1|]. split; [exact I2|]. split; [exact I3|]. split; [exact I4|]. split; [exact I5|]. split; [|reflexivity].
    apply I6. apply (SO t It). exact I2. }
  assert (B0 : 0 <= 5 * (k * hi * (k * hi)) + slack) by (pose proof (Rle_0_sqr (k * hi)) as X0; unfold Rsqr in X0; lra).
  destruct (each_map (fun x y => y <= rho * x + (5 * (k * hi * (k * hi)) + slack)) Q (obeys (numJoints c) v timely slack) (t0 :: ts) EX) as (m & M1 & M2).
  { intros t t' x x' It It' OB' (w & a & now & q & f & vel & e & Q1 & Q2 & Q3 & Q4 & Q5 & Q6 & Q7 & ->) (w' & a' & now' & q' & f' & vel' & e' & R1 & R2 & R3 & R4 & R5 & R6 & R7 & ->).
    destruct (OB' _ _ _ _ _ _ _ _ _ Q3 Q1 Q7 Q4 Q2 R3 R4 R2) as ((TM & TC) & SL). set (hh := num now' - num now) in *. set (u := num now - num start) in *.
    replace (num now' - num start) with (u + hh) by (unfold u, hh; ring). pose proof (line_step _ _ _ _ u vel hh OL Q5) as ST. fold k in ST.
    set (cc := vsub (fp (move (u + hh))) (vadd (fp (move u)) (vscale hh (t_vel vel)))) in *. set (ss := vsub (fp f') (vadd (fp f) (vscale hh (t_vel (corrected vel K e))))) in *.
    replace (vsub (fp (move (u + hh))) (fp f')) with
      (vsub (vadd (vadd (fp (move u)) (vscale hh (t_vel vel))) cc) (vadd (vadd (fp f) (vscale hh (vadd (t_vel vel) (vscale K (vsub (fp (move u)) (fp f)))))) ss)).
    2:{ unfold cc, ss. cbn [corrected t_vel]. replace (t_vel e) with (vsub (fp (move u)) (fp f)) by (rewrite Q6; destruct (fp f), (t_vel e); vring).
        destruct (fp (move (u + hh))), (fp (move u)), (fp f), (fp f'), (t_vel vel). vring. }
    eapply Rle_trans; [apply step_norm|].
    assert (KH : K * hh = gain s * hh / period). { unfold K, period. field. unfold period in PE. intros Z. rewrite Z in PE. apply PE. unfold Rdiv. ring. }
    rewrite KH. pose proof (norm_nonneg (vsub (fp (move u)) (fp f))) as NN.
    assert (HH : k * hh * (k * hh) <= k * hi * (k * hi)).
    { replace (k * hh * (k * hh)) with (k * k * (hh * hh)) by ring. replace (k * hi * (k * hi)) with (k * k * (hi * hi)) by ring. pose proof (Rle_0_sqr k) as X0. unfold Rsqr in X0. assert (hh * hh <= hi * hi) by nra. nra. }
    assert (Rabs (1 - gain s * hh / period) * norm (vsub (fp (move u)) (fp f)) <= rho * norm (vsub (fp (move u)) (fp f))) by (apply Rmult_le_compat_r; auto). lra. }
  { exact OB. }
  destruct m as [|e0 es]; [inversion M1|]. exists e0, es. split.
  - clear -M1. induction M1 as [|t x l m Hq M IH]; constructor; [|exact IH]. destruct Hq as (w & a & now & q & f & vel & e & Q1 & Q2 & Q3 & Q4 & _ & _ & _ & Q5). exists q, f, now. auto.
  - intros i Hi. assert (LE : length ts = length es) by (apply BccLineFacts2.F2_length in M1; cbn in M1; lia). apply contract; auto; [|rewrite <- LE; exact Hi].
    inversion M1 as [|? ? ? ? Hq _]; subst. destruct Hq as (? & ? & ? & ? & ? & ? & ? & _ & _ & _ & _ & _ & _ & _ & ->). apply norm_nonneg.
Qed.
Theorem movv_tracks xd s tr s1 h s2 v1 v2 : length xd = 6%nat -> exec (movv c xd) s tr (Done true) s1 -> referenceFrame s = BASE_FRAME ->
  history c s1 h s2 -> Forall (fun e => lets_go_on (fst (fst e)) /\ no_tool (fst (fst e))) h ->
  Forall as_kdl (trace_of h) -> served d v tr v1 -> served d v1 (trace_of h) v2 -> visible (twist_at xd 0) ->
  exists g from start, joints_read (numJoints c) tr g /\ stands v g from /\ In (Now, start) tr /\ (regular_log (fM from) ->
    forall t0 ts rho slack, let period := IZR (cmcPeriodMs s) / 1000 in let timely h := Rabs (1 - gain s * h / period) <= rho in
      Forall (driven h) (t0 :: ts) -> Forall (solvable d (numJoints c) v) (t0 :: ts) -> each_next (obeys (numJoints c) v timely slack) (t0 :: ts) ->
      Forall (fun t => forall now, In (Now, now) t -> 0 <= num now - num start /\ (num now - num start) * speed (twist_at xd 0) <= 10) (t0 :: ts) ->
      0 <= rho < 1 -> 0 <= slack -> period <> 0 ->
      exists e0 es, Forall2 (off (numJoints c) v (num start) (going from (twist_at xd 0))) (t0 :: ts) (e0 :: es) /\
        forall i, (i <= length ts)%nat -> nth i (e0 :: es) 0 <= rho ^ i * e0 + slack / (1 - rho)).
Proof.
  intros LX E RF H L AK SV1 SV2 VS.
  destruct (movv_carries d ch pre v c CO OP N OJ xd s tr s1 h s2 v1 v2 LX E H L AK SV1 SV2 VS) as (g & from & start & J & SF & IN & X).
  exists g, from, start. split; [exact J|]. split; [exact SF|]. split; [exact IN|]. intros RL. specialize (X RL).
  intros t0 ts rho slack period timely DR SO OB TI RH SP PE. set (move := going from (twist_at xd 0)). set (K := gain s * 1000 / IZR (cmcPeriodMs s)). set (vel := twist_at xd 0).
  set (Q := fun (t : list event) (x : R) => exists w a now q f e, In (VelocityMove w, a) t /\ In (Now, now) t /\ joints_read (numJoints c) t q /\ stands v q f /\
     fp (move (num now - num start)) = vadd (fp f) (t_vel e) /\ carries v q w (corrected vel K e) /\ x = norm (vsub (fp (move (num now - num start))) (fp f))).
  rewrite Forall_forall in DR, SO, TI.
  assert (EX : forall t, In t (t0 :: ts) -> exists x, Q t x).
  { intros t It. destruct (DR t It) as (b & w & a & Ih & Iw). destruct (X _ _ _ _ _ Ih Iw eq_refl) as (w' & now & q & f & e & _ & EW & I1 & I2 & I3 & I4). injection EW as <-.
    destruct (TI t It now I1) as (T1 & T2). destruct (I4 T1 T2) as (I5 & _ & I6). rewrite RF in I6. change (turned BASE_FRAME f ?x) with x in I6.
    eexists. exists w, a, now, q, f, e. split; [exact Iw|]. split; [exact I1|]. split; [exact I2|]. split; [exact I3|]. split; [exact I5|]. split; [|reflexivity].
    apply I6. apply (SO t It). exact I2. }
  destruct (each_map (fun x y => y <= rho * x + slack) Q (obeys (numJoints c) v timely slack) (t0 :: ts) EX) as (m & M1 & M2).
  { intros t t' x x' It It' OB' (w & a & now & q & f & e & Q1 & Q2 & Q3 & Q4 & Q6 & Q7 & ->) (w' & a' & now' & q' & f' & e' & R1 & R2 & R3 & R4 & R6 & R7 & ->).
    destruct (OB' _ _ _ _ _ _ _ _ _ Q3 Q1 Q7 Q4 Q2 R3 R4 R2) as (TC & SL). set (hh := num now' - num now) in *. set (u := num now - num start) in *.
    replace (num now' - num start) with (u + hh) by (unfold u, hh; ring).
    set (ss := vsub (fp f') (vadd (fp f) (vscale hh (t_vel (corrected vel K e))))) in *.
    replace (vsub (fp (move (u + hh))) (fp f')) with
      (vsub (vadd (vadd (fp (move u)) (vscale hh (t_vel vel))) vzero) (vadd (vadd (fp f) (vscale hh (vadd (t_vel vel) (vscale K (vsub (fp (move u)) (fp f)))))) ss)).
    2:{ unfold ss. cbn [corrected t_vel]. replace (t_vel e) with (vsub (fp (move u)) (fp f)) by (rewrite Q6; destruct (fp f), (t_vel e); vring).
        unfold move, going, vel. cbn [fp]. generalize (fp from) (fp f) (fp f') (t_vel (twist_at xd 0)). clear. intros. unfold vzero. vring. }
    eapply Rle_trans; [apply step_norm|].
    assert (KH : K * hh = gain s * hh / period). { unfold K, period. field. unfold period in PE. intros Z. rewrite Z in PE. apply PE. unfold Rdiv. ring. }
    rewrite KH. pose proof (norm_nonneg (vsub (fp (move u)) (fp f))) as NN. rewrite KeyboardFacts7.norm_of_zero.
    assert (Rabs (1 - gain s * hh / period) * norm (vsub (fp (move u)) (fp f)) <= rho * norm (vsub (fp (move u)) (fp f))) by (apply Rmult_le_compat_r; auto). lra. }
  { exact OB. }
  destruct m as [|e0 es]; [inversion M1|]. exists e0, es. split.
  - clear -M1. induction M1 as [|t x l m Hq M IH]; constructor; [|exact IH]. destruct Hq as (w & a & now & q & f & e & Q1 & Q2 & Q3 & Q4 & _ & _ & Q5). exists q, f, now. auto.
  - intros i Hi. assert (LE : length ts = length es) by (apply BccLineFacts2.F2_length in M1; cbn in M1; lia). apply contract; auto; [|rewrite <- LE; exact Hi].
    inversion M1 as [|? ? ? ? Hq _]; subst. destruct Hq as (? & ? & ? & ? & ? & ? & _ & _ & _ & _ & _ & _ & ->). apply norm_nonneg.
Qed.
(** with cycles that are exactly one period apart *)
Theorem movv_gain xd s tr s1 h s2 v1 v2 : length xd = 6%nat -> exec (movv c xd) s tr (Done true) s1 -> referenceFrame s = BASE_FRAME ->
  history c s1 h s2 -> Forall (fun e => lets_go_on (fst (fst e)) /\ no_tool (fst (fst e))) h ->
  Forall as_kdl (trace_of h) -> served d v tr v1 -> served d v1 (trace_of h) v2 -> visible (twist_at xd 0) -> 0 < gain s < 2 ->
  exists g from start, joints_read (numJoints c) tr g /\ stands v g from /\ In (Now, start) tr /\ (regular_log (fM from) ->
    forall t t', let period := IZR (cmcPeriodMs s) / 1000 in
      driven h t -> driven h t' -> solvable d (numJoints c) v t -> solvable d (numJoints c) v t' -> obeys (numJoints c) v (fun h => h = period) 0 t t' ->
      Forall (fun t => forall now, In (Now, now) t -> 0 <= num now - num start /\ (num now - num start) * speed (twist_at xd 0) <= 10) [t; t'] ->
      period <> 0 ->
      exists e e', off (numJoints c) v (num start) (going from (twist_at xd 0)) t e /\ off (numJoints c) v (num start) (going from (twist_at xd 0)) t' e' /\
        e' <= Rabs (1 - gain s) * e /\ (0 < e -> e' < e)).
Proof.
  intros LX E RF H L AK SV1 SV2 VS GN. destruct (movv_tracks xd s tr s1 h s2 v1 v2 LX E RF H L AK SV1 SV2 VS) as (g & from & start & J & SF & IN & X).
  exists g, from, start. split; [exact J|]. split; [exact SF|]. split; [exact IN|]. intros RL t t' period D1 D2 S1 S2 OB TI PE. specialize (X RL t [t'] (Rabs (1 - gain s)) 0).
  assert (RH : 0 <= Rabs (1 - gain s) < 1) by (split; [apply Rabs_pos|apply Rabs_def1; lra]).
  destruct X as (e0 & es & F & B); auto.
  - split; [|split; exact I]. intros q w a u f now q' f' now' A1 A2 A3 A4 A5 A6 A7 A8. destruct (OB q w a u f now q' f' now' A1 A2 A3 A4 A5 A6 A7 A8) as (-> & SL). split; [|exact SL].
    fold period. replace (gain s * period / period) with (gain s) by (field; exact PE). lra.
  - lra.
  - inversion F as [|? ? ? ? F1 F2]; subst. inversion F2 as [|? e1 ? ? F3 F4]; subst. inversion F4; subst. exists e0, e1. split; [exact F1|]. split; [exact F3|].
    assert (BB : e1 <= Rabs (1 - gain s) * e0). { specialize (B 1%nat ltac:(cbn; lia)). cbn [nth pow] in B. unfold Rdiv in B. rewrite Rmult_0_l in B. lra. }
    split; [exact BB|]. intros P. nra.
Qed.
End Chain.
