(** Proofs about the solver used by several threads: what is answered while tools are added. *)
From Coq Require Import Reals List Bool Arith Lia.
From Verif Require Import Kdl KdlRot Trig KinRep KdlSolver Ft Tree ToolRace ToolRaceSpec ToolRaceFacts ToolRaceFacts2.
Import ListNotations.
Open Scope nat_scope.
Local Notation length := List.length.

Lemma after_all s (h : list (nat * tool_op)) : after s (map snd h) (length h) = all s h.
Proof. unfold after, all. rewrite <- (map_length snd h), firstn_all. reflexivity. Qed.
Lemma after_prefix s (h e : list (nat * tool_op)) m : m <= length h -> after s (map snd (h ++ e)) m = after s (map snd h) m.
Proof. intros L. unfold after. rewrite map_app, firstn_app, map_length. replace (m - length h) with 0 by lia. rewrite app_nil_r. reflexivity. Qed.

Section Query.
Context (ik : chain -> list R -> frame -> option (list R)) (k : chain_solvers).
Hypothesis Z : sized ik k.
Context (s : solver) (strict : bool).
Let N := nr_of_joints (sv_chain s).

Lemma play_query (J : list (nat * tool_op) -> prog -> Prop) :
  (forall h e p, only_adds (h ++ e) -> J h p -> J (h ++ e) p) ->
  (forall w, seen s w -> J (w_history w) (w_query w) -> J (w_history w) (ask strict w)) ->
  forall ts w, adders' s w -> J (w_history w) (w_query w) ->
    let w' := play strict (sv_original s) ts w in adders' s w' /\ J (w_history w') (w_query w').
Proof.
  intros Mono Ask. induction ts as [|t ts IH]; intros w A H; [split; assumption|].
  pose proof (adders'_step strict s t w A) as A'. apply (IH (step strict (sv_original s) t w)); [exact A'|].
  destruct t as [|i].
  - cbn. apply Ask; [apply adders_seen; exact A|exact H].
  - rewrite query_kept by exact I. destruct (history_step strict (sv_original s) (Changer i) w) as (e & E). rewrite E.
    apply Mono; [|exact H]. rewrite <- E. apply A'.
Qed.

(** a turn of the query that only reads the number of joints changes nothing *)
Lemma ask_joints w : seen s w -> skip N (ask strict w) = skip N (w_query w) \/ skip N (w_query w) = w_query w.
Proof.
  intros Y. unfold ask. destruct (w_query w) as [r| |kk|kk|kk|kk]; try (right; reflexivity). left. cbn [skip].
  pose proof (seen_nj s w Y) as E. destruct (w_owner w) as [[[i o] l]|] eqn:O.
  - rewrite (seen_quiet s w Y i o l O), andb_false_r, E. reflexivity.
  - rewrite E. reflexivity.
Qed.
Lemma ask_answer w r : answer_of (w_query w) = Some r -> ask strict w = w_query w.
Proof. unfold ask. destruct (w_query w); cbn; congruence. Qed.

Context (x : query) (lo : nat).
Definition told (h : list (nat * tool_op)) (r : tresult) : Prop := exists m, lo <= m <= length h /\ r = alone ik k (after s (map snd h) m) x.
Lemma told_more h e r : told h r -> told (h ++ e) r.
Proof. intros (m & L & E). exists m. rewrite app_length. split; [lia|]. rewrite after_prefix by lia. exact E. Qed.
Lemma told_now h : lo <= length h -> told h (alone ik k (all s h) x).
Proof. intros L. exists (length h). split; [lia|]. rewrite after_all. reflexivity. Qed.

(** *** positions and velocities *)
Section Kin.
Context (K : chain -> prog).
Hypothesis HK : forall s', nr_of_joints (sv_chain s') = N -> answer_of (skip N (K (sv_chain s'))) = Some (alone ik k s' x).
Definition Jkin (h : list (nat * tool_op)) (p : prog) : Prop :=
  lo <= length h /\ (skip N p = Locked K \/ exists r, answer_of (skip N p) = Some r /\ told h r).
Lemma Jkin_mono h e p : only_adds (h ++ e) -> Jkin h p -> Jkin (h ++ e) p.
Proof.
  intros _ (L & H). split; [rewrite app_length; lia|]. destruct H as [H|(r & A & T)]; [left; exact H|]. right. exists r. split; [exact A|apply told_more; exact T].
Qed.
Lemma Jkin_ask w : seen s w -> Jkin (w_history w) (w_query w) -> Jkin (w_history w) (ask strict w).
Proof.
  intros Y (L & H). destruct (ask_joints w Y) as [E|E]; [split; [exact L|rewrite E; exact H]|].
  split; [exact L|]. rewrite E in H. destruct H as [H|(r & A & T)].
  - unfold ask. rewrite H. destruct (w_owner w) eqn:O; [left; reflexivity|]. right.
    exists (alone ik k (all s (w_history w)) x). split; [|apply told_now; exact L].
    rewrite (seen_free s w Y O). apply HK. apply seen_nr. exact Y.
  - right. exists r. split; [|exact T]. rewrite (ask_answer w r A), E. exact A.
Qed.
End Kin.

(** *** gravity, when counters can be read while they change *)
Section Gravity.
Context (K : nat -> chain -> prog).
Hypothesis HK : forall m s', nr_of_joints (sv_chain s') = N ->
  answer_of (skip N (K m (sv_chain s'))) = Some (if Nat.eqb m (length (sv_chain s')) then alone ik k s' x else TFalse).
Hypothesis lax : strict = false.
Definition Jgrav (h : list (nat * tool_op)) (p : prog) : Prop :=
  lo <= length h /\ (skip N p = ReadSegments (fun m => Locked (K m)) \/ (exists m, skip N p = Locked (K m)) \/
    exists r, answer_of (skip N p) = Some r /\ (r = TFalse \/ told h r)).
Lemma Jgrav_mono h e p : only_adds (h ++ e) -> Jgrav h p -> Jgrav (h ++ e) p.
Proof.
  intros _ (L & H). split; [rewrite app_length; lia|]. destruct H as [H|[H|(r & A & T)]]; [left; exact H|right; left; exact H|].
  right. right. exists r. split; [exact A|]. destruct T as [T|T]; [left; exact T|right; apply told_more; exact T].
Qed.
Lemma Jgrav_ask w : seen s w -> Jgrav (w_history w) (w_query w) -> Jgrav (w_history w) (ask strict w).
Proof.
  intros Y (L & H). destruct (ask_joints w Y) as [E|E]; [split; [exact L|rewrite E; exact H]|].
  split; [exact L|]. rewrite E in H. destruct H as [H|[(m & H)|(r & A & T)]].
  - right. left. unfold ask. rewrite H, lax. exists (sh_ns (w_mem w)). destruct (w_owner w); reflexivity.
  - unfold ask. rewrite H. destruct (w_owner w) eqn:O; [right; left; exists m; reflexivity|]. right. right.
    eexists. split.
    + rewrite (seen_free s w Y O). apply HK. apply seen_nr. exact Y.
    + destruct (Nat.eqb m _); [right; apply told_now; exact L|left; reflexivity].
  - right. right. exists r. split; [|exact T]. rewrite (ask_answer w r A), E. exact A.
Qed.
End Gravity.

(** *** forces *)
Section Dyn.
Context (q qdot qdotdot f : list R) (fr : ref_frame).
Hypothesis Ex : x = InvDyn q qdot qdotdot f fr.
Context (qr qd qdd : list R) (F : nat -> prog).
Hypothesis HF : forall m, skip N (F m) = match fr with
  | OTHER_FRAME => Done None
  | TCP_FRAME => dyn_tail k N m qr qd qdd (vectorToWrench f)
  | BASE_FRAME => Bare (fun c => match m with
      | O => Undef
      | Datatypes.S m' => ReadJoints (fun _ => Locked (fun c' => finish same (c_dyn k c' qr qd qdd (repeat wrench_zero m' ++ [wrot (mT (fM (jnt_to_cart c qr))) (vectorToWrench f)]))))
      end)
  end.
Hypothesis (L1 : length qr = N) (L2 : length qd = N) (L3 : length qdd = N).
Hypothesis HA : forall s', nr_of_joints (sv_chain s') = N -> alone ik k s' x =
  match fr with
  | OTHER_FRAME => TFalse
  | _ => match length (sv_chain s') with
         | O => TUndef
         | Datatypes.S m => match c_dyn k (sv_chain s') qr qd qdd (repeat wrench_zero m ++
             [match fr with BASE_FRAME => wrot (mT (fM (jnt_to_cart (sv_chain s') qr))) (vectorToWrench f) | _ => vectorToWrench f end]) with
                            None => TFalse | Some t => TTrue t end
         end
  end.
Definition the_wrench (c : chain) : wrench := match fr with BASE_FRAME => wrot (mT (fM (jnt_to_cart c qr))) (vectorToWrench f) | _ => vectorToWrench f end.
Definition Jdyn (h : list (nat * tool_op)) (p : prog) : Prop :=
  lo <= length h /\ only_adds h /\ (skip N p = ReadSegments F \/
    (fr = BASE_FRAME /\ exists m, m <= length (sv_chain (all s h)) /\ skip N p = skip N (F m)) \/
    (fr <> OTHER_FRAME /\ exists m h1 h2, h = h1 ++ h2 /\ (fr = BASE_FRAME -> m <= length (sv_chain (all s h1))) /\ skip N p = dyn_tail k N m qr qd qdd (the_wrench (sv_chain (all s h1)))) \/
    exists r, answer_of (skip N p) = Some r /\ (r = TUndef \/ r = TFalse \/ told h r)).
Lemma Jdyn_mono h e p : only_adds (h ++ e) -> Jdyn h p -> Jdyn (h ++ e) p.
Proof.
  intros A (L & _ & H). split; [rewrite app_length; lia|]. split; [exact A|].
  destruct H as [H|[(B & m & M & H)|[(B & m & h1 & h2 & E & M & H)|(r & Ar & T)]]].
  - left. exact H.
  - right. left. split; [exact B|]. exists m. split; [|exact H].
    apply Forall_app in A. destruct (grows s h e (proj2 A)) as (d & G & _). rewrite G, app_length. lia.
  - right. right. left. split; [exact B|]. exists m, h1, (h2 ++ e). split; [rewrite E, app_assoc; reflexivity|]. split; assumption.
  - right. right. right. exists r. split; [exact Ar|]. destruct T as [T|[T|T]]; [left; exact T|right; left; exact T|right; right; apply told_more; exact T].
Qed.
Lemma undef_ok h : lo <= length h -> only_adds h -> Jdyn h Undef.
Proof. intros L A. split; [exact L|]. split; [exact A|]. right. right. right. exists TUndef. split; [reflexivity|left; reflexivity]. Qed.
(** after the number of segments is read *)
Lemma Jdyn_read w m : seen s w -> lo <= length (w_history w) -> m <= length (sv_chain (all s (w_history w))) -> Jdyn (w_history w) (F m).
Proof.
  intros Y L M. split; [exact L|]. split; [apply (seen_adds s w Y)|]. pose proof (HF m) as H. destruct fr eqn:Efr.
  - right. left. split; [reflexivity|]. exists m. split; [exact M|reflexivity].
  - right. right. left. split; [discriminate|]. exists m, (w_history w), []. split; [rewrite app_nil_r; reflexivity|]. split; [discriminate|].
    rewrite H. unfold the_wrench. rewrite Efr. reflexivity.
  - right. right. right. exists TFalse. split; [rewrite H; reflexivity|right; left; reflexivity].
Qed.
Lemma Jdyn_ask w : seen s w -> Jdyn (w_history w) (w_query w) -> Jdyn (w_history w) (ask strict w).
Proof.
  intros Y (L & A & H). destruct (ask_joints w Y) as [E|E]; [split; [exact L|split; [exact A|rewrite E; exact H]]|].
  rewrite E in H. destruct H as [H|[(B & m & M & H)|[(B & m & h1 & h2 & Eh & M & H)|(r & Ar & T)]]].
  - unfold ask. rewrite H. destruct (w_owner w); [destruct strict; [apply undef_ok; assumption|]|]; apply Jdyn_read; try assumption; apply (seen_ns s w Y).
  - rewrite HF, B in H. unfold ask. rewrite H. destruct (w_owner w) eqn:O; [apply undef_ok; assumption|].
    rewrite (seen_free s w Y O). destruct m as [|m]; [apply undef_ok; assumption|].
    split; [exact L|]. split; [exact A|]. right. right. left. split; [rewrite B; discriminate|].
    exists (Datatypes.S m), (w_history w), []. split; [rewrite app_nil_r; reflexivity|]. split; [intros _; exact M|].
    unfold the_wrench. rewrite B. reflexivity.
  - destruct m as [|m].
    + cbn in H. unfold ask. rewrite H. apply undef_ok; assumption.
    + unfold ask. rewrite H. cbn [dyn_tail skip]. destruct (w_owner w) eqn:O.
      * split; [exact L|]. split; [exact A|]. right. right. left. split; [exact B|]. exists (Datatypes.S m), h1, h2. split; [exact Eh|]. split; [exact M|reflexivity].
      * rewrite (seen_free s w Y O). split; [exact L|]. split; [exact A|]. right. right. right.
        set (K := fun c => finish same (c_dyn k c qr qd qdd (repeat wrench_zero m ++ [the_wrench (sv_chain (all s h1))]))).
        pose proof (seen_nr s w Y) as NR. fold N in NR.
        destruct (answer_of (skip N (K (sv_chain (all s (w_history w)))))) as [r|] eqn:Ar.
        2:{ exfalso. unfold K in Ar. rewrite (dyn_finish ik k Z) in Ar by assumption. discriminate. }
        exists r. split; [exact Ar|].
        destruct (tail_answer ik k Z N (Datatypes.S m) qr qd qdd (the_wrench (sv_chain (all s h1))) _ r NR L1 L2 L3 K eq_refl Ar) as (V & C).
        destruct r as [| |t]; [left; reflexivity|right; left; reflexivity|]. right. right. specialize (C ltac:(discriminate)).
        assert (the_wrench (sv_chain (all s h1)) = the_wrench (sv_chain (all s (w_history w)))) as W1.
        { unfold the_wrench. destruct fr eqn:Efr; [|reflexivity|reflexivity]. specialize (M eq_refl).
          rewrite Eh in A. apply Forall_app in A. destruct (grows s h1 h2 (proj2 A)) as (d & G & Ld). rewrite <- Eh in G. rewrite G in C |- *. rewrite app_length in C.
          destruct d; [rewrite app_nil_r; reflexivity|]. cbn in C. lia. }
        rewrite W1 in V. replace (Datatypes.S m - 1) with m in V by lia.
        exists (length (w_history w)). split; [lia|]. rewrite after_all, HA by exact NR. rewrite <- C. unfold the_wrench in V.
        destruct fr; [exact V|exact V|congruence].
  - split; [exact L|]. split; [exact A|]. right. right. right. exists r. split; [|exact T]. rewrite (ask_answer w r Ar), E. exact Ar.
Qed.
End Dyn.
End Query.

(** ** The theorems *)
Section Theorems.
Context (ik : chain -> list R -> frame -> option (list R)) (k : chain_solvers).
Hypothesis Z : sized ik k.
Context (strict : bool) (s : solver) (threads : list (list tool_op)) (x : query) (ts1 ts2 : list turn).
Hypothesis A : Forall (Forall adds) threads.
Hypothesis C1 : Forall changing ts1.
Let w1 := play strict (sv_original s) ts1 (begin (sv_chain s) threads (code ik k x)).
Let w2 := play strict (sv_original s) ts2 w1.

Lemma w1_query : w_query w1 = code ik k x.
Proof. unfold w1. rewrite query_kept_all by exact C1. reflexivity. Qed.
Lemma w1_adders : adders' s w1.
Proof. apply adders'_play. apply adders'_begin. exact A. Qed.
Lemma answered_of w : answered w = answer_of (w_query w).
Proof. reflexivity. Qed.
Lemma told_instant r : told ik k s x (ended w1) (w_history w2) r -> at_an_instant ik k s x w1 w2 r.
Proof. intros (m & L & E). exists m. unfold begun. rewrite map_length. split; [exact L|exact E]. Qed.
Lemma undef_now p : skip (nr_of_joints (sv_chain s)) p = Undef -> (forall s', nr_of_joints (sv_chain s') = nr_of_joints (sv_chain s) -> alone ik k s' x = TUndef) ->
  exists r, answer_of (skip (nr_of_joints (sv_chain s)) p) = Some r /\ told ik k s x (ended w1) (w_history w1) r.
Proof.
  intros E U. exists TUndef. split; [rewrite E; reflexivity|]. exists (length (w_history w1)). split; [pose proof (ended_le w1); lia|].
  symmetry. rewrite after_all. apply U. apply seen_nr. apply adders_seen. apply w1_adders.
Qed.

Theorem kinematic_instant r : kinematic x -> answered w2 = Some r -> at_an_instant ik k s x w1 w2 r.
Proof.
  intros KX AN. apply told_instant. rewrite answered_of in AN.
  assert (exists K, (forall s', nr_of_joints (sv_chain s') = nr_of_joints (sv_chain s) -> answer_of (skip (nr_of_joints (sv_chain s)) (K (sv_chain s'))) = Some (alone ik k s' x)) /\
    Jkin ik k s x (ended w1) K (w_history w1) (w_query w1)) as (K & HK & J0).
  { destruct (kin_shape ik k Z (nr_of_joints (sv_chain s)) x KX) as [(E & U)|(K & E & HK)].
    - exists (fun _ => Undef). split.
      + intros s' E'. cbn. rewrite U by exact E'. reflexivity.
      + split; [apply ended_le|]. right. apply undef_now; [rewrite w1_query; exact E|exact U].
    - exists K. split; [exact HK|]. split; [apply ended_le|]. left. rewrite w1_query. exact E. }
  destruct (play_query s strict (Jkin ik k s x (ended w1) K) (Jkin_mono ik k s x (ended w1) K) (Jkin_ask ik k s strict x (ended w1) K HK) ts2 w1 w1_adders J0) as (_ & _ & J).
  rewrite (skip_answer _ _ _ AN) in J. fold w2 in J. destruct J as [J|(r' & E & T)]; [rewrite J in AN; discriminate|]. rewrite E in AN. injection AN as <-. exact T.
Qed.

Theorem gravity_instant q r : strict = false -> x = Gravity q -> answered w2 = Some r -> r = TFalse \/ at_an_instant ik k s x w1 w2 r.
Proof.
  intros LAX EX AN. rewrite answered_of in AN.
  assert (exists K, (forall m s', nr_of_joints (sv_chain s') = nr_of_joints (sv_chain s) ->
      answer_of (skip (nr_of_joints (sv_chain s)) (K m (sv_chain s'))) = Some (if Nat.eqb m (length (sv_chain s')) then alone ik k s' x else TFalse)) /\
    Jgrav ik k s x (ended w1) K (w_history w1) (w_query w1)) as (K & HK & J0).
  { pose proof (gravity_shape ik k Z (nr_of_joints (sv_chain s)) q) as SH. rewrite <- EX in SH. destruct SH as [(E & U)|(K & E & HK)].
    - exists (fun m c => if Nat.eqb m (length c) then Undef else Done None). split.
      + intros m s' E'. rewrite U by exact E'. destruct (Nat.eqb m _); reflexivity.
      + split; [apply ended_le|]. right. right. destruct (undef_now (w_query w1)) as (r' & A1 & T); [rewrite w1_query; exact E|exact U|].
        exists r'. split; [exact A1|right; exact T].
    - exists K. split; [exact HK|]. split; [apply ended_le|]. left. rewrite w1_query. exact E. }
  destruct (play_query s strict (Jgrav ik k s x (ended w1) K) (Jgrav_mono ik k s x (ended w1) K) (Jgrav_ask ik k s strict x (ended w1) K HK LAX) ts2 w1 w1_adders J0) as (_ & _ & J).
  rewrite (skip_answer _ _ _ AN) in J. fold w2 in J. destruct J as [J|[(m & J)|(r' & E & T)]]; [rewrite J in AN; discriminate|rewrite J in AN; discriminate|].
  rewrite E in AN. injection AN as <-. destruct T as [T|T]; [left; exact T|right; apply told_instant; exact T].
Qed.

Theorem forces_instant q qd qdd f fr r : x = InvDyn q qd qdd f fr -> answered w2 = Some r -> r = TUndef \/ r = TFalse \/ at_an_instant ik k s x w1 w2 r.
Proof.
  intros EX AN. rewrite answered_of in AN.
  pose proof (dyn_shape ik k (nr_of_joints (sv_chain s)) q qd qdd f fr) as SH. rewrite <- EX in SH. destruct SH as [(E & U)|(qr & qv & qa & F & E & HF & L1 & L2 & L3 & HA)].
  - assert (Jkin ik k s x (ended w1) (fun _ => Undef) (w_history w1) (w_query w1)) as J0.
    { split; [apply ended_le|]. right. apply undef_now; [rewrite w1_query; exact E|exact U]. }
    destruct (play_query s strict _ (Jkin_mono ik k s x (ended w1) (fun _ => Undef))
      (Jkin_ask ik k s strict x (ended w1) (fun _ => Undef) (fun s' E' => f_equal Some (eq_sym (U s' E')))) ts2 w1 w1_adders J0) as (_ & _ & J).
    rewrite (skip_answer _ _ _ AN) in J. fold w2 in J. destruct J as [J|(r' & E' & T)]; [rewrite J in AN; discriminate|].
    rewrite E' in AN. injection AN as <-. right. right. apply told_instant. exact T.
  - assert (Jdyn ik k s x (ended w1) f fr qr qv qa F (w_history w1) (w_query w1)) as J0.
    { split; [apply ended_le|]. split; [apply w1_adders|]. left. rewrite w1_query. exact E. }
    destruct (play_query s strict _ (Jdyn_mono ik k s x (ended w1) f fr qr qv qa F L1 L2 L3)
      (Jdyn_ask ik k Z s strict x (ended w1) q qd qdd f fr EX qr qv qa F HF L1 L2 L3 HA) ts2 w1 w1_adders J0) as (_ & _ & _ & J).
    rewrite (skip_answer _ _ _ AN) in J. fold w2 in J.
    destruct J as [J|[(B & m & M & J)|[(B & m & h1 & h2 & Eh & M & J)|(r' & E' & T)]]].
    + rewrite J in AN. discriminate.
    + rewrite J, HF, B in AN. discriminate.
    + rewrite J in AN. destruct m; cbn in AN; [injection AN as <-; left; reflexivity|discriminate].
    + rewrite E' in AN. injection AN as <-. destruct T as [T|[T|T]]; [left; exact T|right; left; exact T|right; right; apply told_instant; exact T].
Qed.
End Theorems.
Theorem kinematic_told : forall ik k strict s threads x ts1 ts2 w1 w2 r, sized ik k -> Forall (Forall adds) threads -> Forall changing ts1 ->
  w1 = play strict (sv_original s) ts1 (begin (sv_chain s) threads (code ik k x)) -> w2 = play strict (sv_original s) ts2 w1 ->
  kinematic x -> answered w2 = Some r -> at_an_instant ik k s x w1 w2 r.
Proof. intros ik k strict s threads x ts1 ts2 w1 w2 r Z A C -> ->. exact (kinematic_instant ik k Z strict s threads x ts1 ts2 A C r). Qed.
Theorem gravity_told : forall ik k s threads q ts1 ts2 w1 w2 r, sized ik k -> Forall (Forall adds) threads -> Forall changing ts1 ->
  w1 = play false (sv_original s) ts1 (begin (sv_chain s) threads (code ik k (Gravity q))) -> w2 = play false (sv_original s) ts2 w1 ->
  answered w2 = Some r -> r = TFalse \/ at_an_instant ik k s (Gravity q) w1 w2 r.
Proof. intros ik k s threads q ts1 ts2 w1 w2 r Z A C -> ->. exact (gravity_instant ik k Z false s threads (Gravity q) ts1 ts2 A C q r eq_refl eq_refl). Qed.
Theorem forces_told : forall ik k strict s threads q qd qdd f fr ts1 ts2 w1 w2 r, sized ik k -> Forall (Forall adds) threads -> Forall changing ts1 ->
  w1 = play strict (sv_original s) ts1 (begin (sv_chain s) threads (code ik k (InvDyn q qd qdd f fr))) -> w2 = play strict (sv_original s) ts2 w1 ->
  answered w2 = Some r -> r = TUndef \/ r = TFalse \/ at_an_instant ik k s (InvDyn q qd qdd f fr) w1 w2 r.
Proof. intros ik k strict s threads q qd qdd f fr ts1 ts2 w1 w2 r Z A C -> ->. exact (forces_instant ik k Z strict s threads (InvDyn q qd qdd f fr) ts1 ts2 A C q qd qdd f fr r eq_refl). Qed.
