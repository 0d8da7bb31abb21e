(** Proofs about the single commands: streamed commands. *)
From Coq Require Import Reals ZArith List Bool Lra Lia.
From Verif Require Import Kdl KdlFacts KdlRot KinRepSpec Vocab Bcc BccSpec BccLineSpec BccCmdSpec
  BccFacts BccAll BccFacts2 BccFacts3 BccFacts4 BccFacts6 BccFacts7 BccLineFacts BccLineFacts2 BccCmdFacts.
Import ListNotations.
Open Scope R_scope.
Local Notation S := Datatypes.S.
Local Notation length := List.length.

Lemma minus_diff a : forall b n d, minus a b n = Some d -> length a = length b -> difference b a d.
Proof.
  induction a as [|x a IH]; intros b n d H L; cbn in H.
  - injection H as <-. destruct b; [|discriminate]. split; [reflexivity|cbn; lia].
  - destruct b as [|y b]; [discriminate|]. destruct n as [|n]; [discriminate|]. destruct (minus a b n) as [r|] eqn:E; [|discriminate]. injection H as <-.
    destruct (IH _ _ _ E ltac:(cbn in L; lia)) as (L1 & N). split; [cbn; lia|]. intros [|j] Hj; [reflexivity|]. cbn in Hj |- *. apply N. lia.
Qed.

Theorem pose_streams c x s tr s' reaches : complete c -> wide c -> exec (pose c x) s tr (Done tt) s' -> Forall (solves_in (numJoints c) reaches) tr ->
  currentState s = VOCAB_CC_NOT_CONTROLLING -> In (streamingCommand s) [VOCAB_CC_POSE; VOCAB_CC_MOVI] -> in_mode (numJoints c) VOCAB_CM_POSITION_DIRECT tr ->
  (exists q q' d, motions tr = [SetPositions q'] /\ joints_read (numJoints c) tr q /\ reaches (referenceFrame s) q q' (poses x) /\ difference q q' d /\ retreating c q d) \/
  (motions tr = [] /\ (refused tr \/ exists q a d, joints_read (numJoints c) tr q /\ In (InvKin x q (referenceFrame s), a) tr /\ difference q (vals a) d /\ ~ retreating c q d)).
Proof.
  intros C W E S1 CS SC IM. revert E. set (G := fun tr (o : outcome Datatypes.unit) (s' : st) => o = Done tt -> Forall (solves_in (numJoints c) reaches) tr -> in_mode (numJoints c) VOCAB_CM_POSITION_DIRECT tr ->
    (exists q q' d, motions tr = [SetPositions q'] /\ joints_read (numJoints c) tr q /\ reaches (referenceFrame s) q q' (poses x) /\ difference q q' d /\ retreating c q d) \/
    (motions tr = [] /\ (refused tr \/ exists q a d, joints_read (numJoints c) tr q /\ In (InvKin x q (referenceFrame s), a) tr /\ difference q (vals a) d /\ ~ retreating c q d))).
  enough (wp (pose c x) s [] G) as H by (intros E; exact (wp_sound _ _ _ _ _ _ H E eq_refl S1 IM)). clear tr s' S1 IM.
  unfold pose. go. rewrite CS. replace (VOCAB_CC_NOT_CONTROLLING =? VOCAB_CC_NOT_CONTROLLING)%Z with true by reflexivity. cbn [negb]. go.
  replace (negb (Z.eqb (streamingCommand s) VOCAB_CC_POSE) && negb (Z.eqb (streamingCommand s) VOCAB_CC_MOVI)) with false by (destruct SC as [<-|[<-|[]]]; reflexivity).
  apply wp_check. intros am b A. destruct b; cbn [negb]; go.
  2:{ intros _ _ (a & t & X & M). exfalso. cbn in X. injection X as <- <-. apply A in M. discriminate. }
  intros aq. brk; go; [|intros _ _ _; right; split; [reflexivity|left; do 2 eexists; split; [right; left; reflexivity|assumption]]].
  intros ai. brk; go; [|intros _ _ _; right; split; [reflexivity|left; do 2 eexists; split; [right; right; left; reflexivity|assumption]]].
  destruct first_n as [t|] eqn:FN; go; [|discriminate]. apply first_n_some in FN. destruct FN as (L & ->).
  destruct minus as [d|] eqn:MI; go; [|discriminate]. apply minus_diff in MI; [|rewrite firstn_length, fill_length; lia].
  assert (LD : length d = numJoints c) by (destruct MI as (-> & _); apply fill_length).
  destruct (checkJointLimitsDir_ok c (fill 0 (numJoints c) (vals aq)) d C W (fill_length _ _ _) ltac:(lia)) as (b & -> & B). go.
  destruct b; cbn [negb]; go.
  - intros ap _ SV _. left. cbn [app] in *. exists (fill 0 (numJoints c) (vals aq)), (firstn (numJoints c) (vals ai)), d. split; [reflexivity|].
    split; [apply filled; cbn; auto|]. inversion SV as [|? ? _ SV1]; subst. inversion SV1 as [|? ? _ SV2]; subst. inversion SV2 as [|? ? SV3 _]; subst.
    destruct (SV3 Heqb0) as (LN & RE). rewrite firstn_all2 in * by lia. split; [exact RE|]. split; [exact MI|]. now apply B.
  - intros _ SV _. right. cbn [app] in *. split; [reflexivity|]. right. exists (fill 0 (numJoints c) (vals aq)), ai, d.
    split; [apply filled; cbn; auto|]. split; [cbn; auto|]. split.
    + destruct MI as (M1 & M2). split; [exact M1|]. intros j Hj. rewrite M2 by exact Hj. rewrite fill_length in Hj. rewrite nth_firstn by exact Hj. reflexivity.
    + intros X. apply B in X. discriminate.
Qed.

Theorem twist_streams c x s tr s' moves k : complete c -> wide c -> length x = (6 * k)%nat -> exec (twist c x) s tr (Done tt) s' -> Forall (moves_as_asked (numJoints c) k moves) tr ->
  currentState s = VOCAB_CC_NOT_CONTROLLING -> streamingCommand s = VOCAB_CC_TWIST -> in_mode (numJoints c) VOCAB_CM_VELOCITY tr ->
  exists w, motions tr = [VelocityMove w] /\
  ((exists q, joints_read (numJoints c) tr q /\ moves (referenceFrame s) q w (twists x) /\ retreating c q w /\ slow c w) \/
   (w = still (numJoints c) /\ (refused tr \/
      exists q a, joints_read (numJoints c) tr q /\ In (DiffInvKin q x (referenceFrame s), a) tr /\ ~ (retreating c q (vals a) /\ slow c (vals a))))).
Proof.
  intros C W L6 E S1 CS SC IM. revert E. set (G := fun tr (o : outcome Datatypes.unit) (s' : st) => o = Done tt -> Forall (moves_as_asked (numJoints c) k moves) tr -> in_mode (numJoints c) VOCAB_CM_VELOCITY tr ->
    exists w, motions tr = [VelocityMove w] /\
    ((exists q, joints_read (numJoints c) tr q /\ moves (referenceFrame s) q w (twists x) /\ retreating c q w /\ slow c w) \/
     (w = still (numJoints c) /\ (refused tr \/
      exists q a, joints_read (numJoints c) tr q /\ In (DiffInvKin q x (referenceFrame s), a) tr /\ ~ (retreating c q (vals a) /\ slow c (vals a)))))).
  enough (wp (twist c x) s [] G) as H by (intros E; exact (wp_sound _ _ _ _ _ _ H E eq_refl S1 IM)). clear tr s' S1 IM.
  unfold twist. go. rewrite CS. replace (VOCAB_CC_NOT_CONTROLLING =? VOCAB_CC_NOT_CONTROLLING)%Z with true by reflexivity. cbn [negb]. go. rewrite SC.
  replace (VOCAB_CC_TWIST =? VOCAB_CC_TWIST)%Z with true by reflexivity. cbn [negb]. go.
  apply wp_check. intros am b A. destruct b; cbn [negb]; go.
  2:{ intros _ _ (a & t & X & M). exfalso. cbn in X. injection X as <- <-. apply A in M. discriminate. }
  intros aq. brk; go.
  2:{ intros az _ _ _. exists (still (numJoints c)). split; [reflexivity|]. right. split; [reflexivity|]. left. do 2 eexists; split; [right; left; reflexivity|assumption]. }
  intros ai. brk; go.
  2:{ intros az _ _ _. exists (still (numJoints c)). split; [reflexivity|]. right. split; [reflexivity|]. left. do 2 eexists; split; [right; right; left; reflexivity|assumption]. }
  cbn [app].
  assert (NO : forall az t o, t = [(GetControlModes, am); (GetEncoders, aq); (DiffInvKin (fill 0 (numJoints c) (vals aq)) x (referenceFrame s), ai); (VelocityMove (zeros (numJoints c)), az)] ->
    (length (vals ai) = numJoints c -> ~ (retreating c (fill 0 (numJoints c) (vals aq)) (vals ai) /\ slow c (vals ai))) -> G t o s).
  { intros az t o -> NB _ SV _. exists (still (numJoints c)). split; [reflexivity|]. right. split; [reflexivity|]. right.
    exists (fill 0 (numJoints c) (vals aq)), ai. split; [apply filled; cbn; auto|]. split; [cbn; auto|].
    inversion SV as [|? ? _ SV1]; subst. inversion SV1 as [|? ? _ SV2]; subst. inversion SV2 as [|? ? SV3 _]; subst. apply NB, (SV3 Heqb0). }
  destruct (checkJointLimitsDir c _ (vals ai)) as [b|] eqn:LD; go; [|discriminate].
  assert (BD : length (vals ai) = numJoints c -> (b = true <-> retreating c (fill 0 (numJoints c) (vals aq)) (vals ai))).
  { intros LN. destruct (checkJointLimitsDir_ok c (fill 0 (numJoints c) (vals aq)) (vals ai) C W (fill_length _ _ _) ltac:(lia)) as (b' & X & B). congruence. }
  destruct b; cbn [negb]; go.
  2:{ intros az. cbn [app]. eapply NO; [reflexivity|]. intros LN (X & _). apply BD in X; [discriminate|exact LN]. }
  destruct (checkJointVelocities c (vals ai)) as [b|] eqn:LV; go; [|discriminate].
  assert (BV : length (vals ai) = numJoints c -> (b = true <-> slow c (vals ai))).
  { intros LN. destruct (checkJointVelocities_ok c (vals ai) C ltac:(lia)) as (b' & X & B). congruence. }
  destruct b; cbn [negb]; go.
  2:{ intros az. cbn [app]. eapply NO; [reflexivity|]. intros LN (_ & X). apply BV in X; [discriminate|exact LN]. }
  destruct first_n as [t|] eqn:FN; go; [|discriminate]. apply first_n_some in FN. destruct FN as (L & ->). intros ap _ SV _. cbn [app] in *.
  exists (firstn (numJoints c) (vals ai)). split; [reflexivity|]. left. exists (fill 0 (numJoints c) (vals aq)). split; [apply filled; cbn; auto|].
  inversion SV as [|? ? _ SV1]; subst. inversion SV1 as [|? ? _ SV2]; subst. inversion SV2 as [|? ? SV3 _]; subst. destruct (SV3 Heqb0) as (LN & RE).
  rewrite firstn_all2 by lia. split; [exact (RE L6)|]. split; [now apply BD|now apply BV].
Qed.

Theorem wrench_streams c f s tr s' balances : complete c -> exec (wrench c f) s tr (Done tt) s' -> Forall (dynamics (numJoints c) balances) tr ->
  currentState s = VOCAB_CC_NOT_CONTROLLING -> streamingCommand s = VOCAB_CC_WRENCH -> in_mode (numJoints c) VOCAB_CM_TORQUE tr ->
  exists tau, motions tr = [SetRefTorques tau] /\
  ((exists q v w e, joints_read (numJoints c) tr q /\ inside c q /\ speeds_read (numJoints c) tr v /\ accelerations_read (numJoints c) tr w /\ opposite f e /\
      balances (referenceFrame s) q v w e tau) \/
   (tau = still (numJoints c) /\ (refused tr \/ exists q, joints_read (numJoints c) tr q /\ ~ inside c q))).
Proof.
  intros C E S1 CS SC IM. revert E. set (G := fun tr (o : outcome Datatypes.unit) (s' : st) => o = Done tt -> Forall (dynamics (numJoints c) balances) tr -> in_mode (numJoints c) VOCAB_CM_TORQUE tr ->
    exists tau, motions tr = [SetRefTorques tau] /\
    ((exists q v w e, joints_read (numJoints c) tr q /\ inside c q /\ speeds_read (numJoints c) tr v /\ accelerations_read (numJoints c) tr w /\ opposite f e /\
      balances (referenceFrame s) q v w e tau) \/
     (tau = still (numJoints c) /\ (refused tr \/ exists q, joints_read (numJoints c) tr q /\ ~ inside c q)))).
  enough (wp (wrench c f) s [] G) as H by (intros E; exact (wp_sound _ _ _ _ _ _ H E eq_refl S1 IM)). clear tr s' S1 IM.
  unfold wrench, read_encoders. go. rewrite CS. replace (VOCAB_CC_NOT_CONTROLLING =? VOCAB_CC_NOT_CONTROLLING)%Z with true by reflexivity. cbn [negb]. go. rewrite SC. replace (VOCAB_CC_WRENCH =? VOCAB_CC_WRENCH)%Z with true by reflexivity. cbn [negb]. go.
  apply wp_check. intros am b A. destruct b; cbn [negb]; go.
  2:{ intros _ _ (a & t & X & M). exfalso. cbn in X. injection X as <- <-. apply A in M. discriminate. }
  assert (REF : forall t az o x a, In (x, a) t -> ok a = false -> motions t = [] -> G (t ++ [(SetRefTorques (zeros (numJoints c)), az)]) o s).
  { intros t az o x a I O Q _ _ _. exists (still (numJoints c)). split; [rewrite motions_app, Q; reflexivity|]. right. split; [reflexivity|]. left. exists x, a. split; [rewrite in_app_iff; auto|auto]. }
  intros aq. brk; go; [|intros az; eapply REF; [cbn; auto|eassumption|reflexivity]].
  intros av. brk; go; [|intros az; eapply REF; [cbn; auto|eassumption|reflexivity]].
  intros aw. brk; go; [|intros az; eapply REF; [cbn; auto|eassumption|reflexivity]].
  destruct (checkJointLimits_ok c (fill 0 (numJoints c) (vals aq)) C (fill_length _ _ _)) as (b & -> & B). go. destruct b; cbn [negb]; go.
  2:{ intros az _ _ _. exists (still (numJoints c)). split; [reflexivity|]. right. split; [reflexivity|]. right. exists (fill 0 (numJoints c) (vals aq)).
      split; [apply filled; cbn; auto|]. intros X. apply B in X. discriminate. }
  intros ad. brk; go; [|intros az; eapply REF; [cbn; auto 9|eassumption|reflexivity]].
  destruct first_n as [t|] eqn:FN; go; [|discriminate]. apply first_n_some in FN. destruct FN as (L & ->). intros ap _ SV _. cbn [app] in *.
  exists (firstn (numJoints c) (vals ad)). split; [reflexivity|]. left.
  exists (fill 0 (numJoints c) (vals aq)), (fill 0 (numJoints c) (vals av)), (fill 0 (numJoints c) (vals aw)), (map Ropp f).
  rewrite Forall_forall in SV. destruct (SV (InvDynForce (fill 0 (numJoints c) (vals aq)) (fill 0 (numJoints c) (vals av)) (fill 0 (numJoints c) (vals aw)) (map Ropp f) (referenceFrame s), ad) ltac:(cbn; auto 9) ltac:(assumption)) as (LN & RE).
  split; [apply filled; cbn; auto|]. split; [now apply B|]. split; [apply filled_speeds; cbn; auto|]. split; [apply filled_accelerations; cbn; auto|]. split; [apply negated|].
  rewrite firstn_all2 by lia. exact RE.
Qed.
