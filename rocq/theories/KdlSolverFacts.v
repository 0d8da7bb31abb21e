(** Proofs about the solver device. *)
From Coq Require Import Reals Lra Lia List Bool Arith ZArith.
From Verif Require Import Kdl KdlFacts KdlRot KdlRotFacts Trig TrigFacts Screw ScrewFacts Subproblems IkProblem Selector SelectorFacts Builder KinRep KinRepSpec KinRepFacts KinRepFacts2 KinRepFacts3 KdlSolver.
Import ListNotations.
Open Scope R_scope.
Local Notation S := Datatypes.S.

(** ** Forward kinematics and tools *)
Lemma chain_fk_app : forall c1 c2 acc q1 q2, length q1 = nr_of_joints c1 ->
  chain_fk acc (c1 ++ c2) (q1 ++ q2) = match chain_fk acc c1 q1 with Some f => chain_fk f c2 q2 | None => None end.
Proof.
  induction c1 as [|s c1 IH]; intros c2 acc q1 q2 L; cbn [app].
  - destruct q1; [reflexivity|discriminate].
  - unfold nr_of_joints in L. cbn [filter] in L. cbn [chain_fk]. destruct (is_fixed (s_joint s)); cbn [negb] in L.
    + now apply IH.
    + destruct q1 as [|x q1]; [discriminate|]. cbn [app]. apply IH. cbn in L. now injection L.
Qed.
Lemma chain_fk_acc : forall c acc q f, chain_fk fid c q = Some f -> chain_fk acc c q = Some (fmul acc f).
Proof.
  assert (G : forall c a b q f, chain_fk b c q = Some f -> chain_fk (fmul a b) c q = Some (fmul a f)).
  { induction c as [|s c IH]; intros a b q f; cbn [chain_fk].
    - destruct q; [|discriminate]. now intros [= <-].
    - destruct (is_fixed _); [rewrite fmul_assoc; apply IH|]. destruct q; [discriminate|]. rewrite fmul_assoc. apply IH. }
  intros c acc q f H. rewrite <- (fmul_id_r acc) at 1. now apply G.
Qed.
Lemma chain_fk_total : forall c acc q, length q = nr_of_joints c -> exists f, chain_fk acc c q = Some f.
Proof.
  induction c as [|s c IH]; intros acc q L; cbn [chain_fk].
  - destruct q; [eauto|discriminate].
  - unfold nr_of_joints in L. cbn [filter] in L. destruct (is_fixed (s_joint s)); cbn [negb] in L; [now apply IH|].
    destruct q as [|x q]; [discriminate|]. apply IH. cbn in L. now injection L.
Qed.

Definition tool_segment (x : list R) : segment := mk_segment fixed_joint (vectorToFrame x).
(** the transform of a sequence of tools *)
Definition tools (xs : list (list R)) : frame := fold_left (fun f x => fmul f (vectorToFrame x)) xs fid.

Lemma finv_fid : finv fid = fid.
Proof. rewrite <- (fmul_id_r (finv fid)). apply fmul_inv_l, rigid_id. Qed.
Lemma tool_segment_pose : forall x t, segment_pose (tool_segment x) t = vectorToFrame x.
Proof.
  intros x t. unfold segment_pose, tool_segment, mk_segment, fixed_joint. cbn [s_joint s_tip].
  assert (P : forall t, joint_pose (J JNone 1 0 vzero vzero) t = fid) by reflexivity.
  rewrite !P, finv_fid, !fmul_id_l. reflexivity.
Qed.
Lemma tools_fk : forall xs acc, chain_fk acc (map tool_segment xs) [] = Some (fold_left (fun f x => fmul f (vectorToFrame x)) xs acc).
Proof.
  induction xs as [|x xs IH]; intros acc; [reflexivity|]. cbn [map chain_fk fold_left].
  change (is_fixed (s_joint (tool_segment x))) with true. cbv iota. rewrite tool_segment_pose. apply IH.
Qed.
Lemma tools_joints : forall c xs, nr_of_joints (c ++ map tool_segment xs) = nr_of_joints c.
Proof.
  intros c xs. unfold nr_of_joints. rewrite filter_app, app_length.
  assert (E : filter (fun s => negb (is_fixed (s_joint s))) (map tool_segment xs) = []) by (induction xs; cbn; auto).
  rewrite E. cbn. lia.
Qed.
Lemma tools_fwd : forall c xs q f, length q = nr_of_joints c -> chain_fwd_kin c q = Some f ->
  chain_fwd_kin (c ++ map tool_segment xs) q = Some (fmul f (tools xs)).
Proof.
  intros c xs q f L H. unfold chain_fwd_kin in *. rewrite <- (app_nil_r q) at 1. rewrite chain_fk_app by exact L. rewrite H.
  apply chain_fk_acc. apply tools_fk.
Qed.

(** the tools in place after a history *)
Definition keep (o : tool_op) (xs : list (list R)) : list (list R) := match o with Append x => xs ++ [x] | Restore => [] end.
Definition in_place (os : list tool_op) : list (list R) := fold_left (fun xs o => keep o xs) os [].

Lemma step_chain : forall fuel s o s' xs, sv_chain s = sv_original s ++ map tool_segment xs -> tool_step fuel s o = Returns s' ->
  sv_original s' = sv_original s /\ sv_chain s' = sv_original s ++ map tool_segment (keep (fst o) xs).
Proof.
  intros fuel s [[x|] dr] s' xs C; unfold tool_step, appendLink, restoreOriginalChain; cbn [fst snd keep].
  - destruct (st_update _ _ _ _); [|discriminate|discriminate]. intros [= <-]. cbn. split; [reflexivity|].
    rewrite C, map_app, <- app_assoc. reflexivity.
  - destruct (st_update _ _ _ _); [|discriminate|discriminate]. intros [= <-]. cbn. split; [reflexivity|]. now rewrite app_nil_r.
Qed.
Lemma run_chain : forall fuel os s s' xs, sv_chain s = sv_original s ++ map tool_segment xs -> tool_run fuel s os = Returns s' ->
  sv_original s' = sv_original s /\ sv_chain s' = sv_original s ++ map tool_segment (fold_left (fun xs o => keep o xs) (map fst os) xs).
Proof.
  induction os as [|o os IH]; intros s s' xs C; cbn [tool_run map fold_left].
  - intros [= <-]. auto.
  - destruct (tool_step fuel s o) as [s1| |] eqn:T; [|discriminate|discriminate]. intros R.
    destruct (step_chain _ _ _ _ _ C T) as [O1 C1]. rewrite <- O1 in C1. destruct (IH _ _ _ C1 R) as [O2 C2].
    rewrite O1 in O2, C2. auto.
Qed.

Theorem tools_forward : forall fuel s os s' q,
  sv_chain s = sv_original s -> tool_run fuel s os = Returns s' -> (nr_of_joints (sv_original s) <= length q)%nat ->
  exists f, fwdKin s q = Some (frameToVector f) /\ fwdKin s' q = Some (frameToVector (fmul f (tools (in_place (map fst os))))).
Proof.
  intros fuel s os s' q C R L. destruct (run_chain fuel os s s' [] ltac:(cbn; now rewrite app_nil_r) R) as [O' C'].
  unfold fwdKin, joints_in. rewrite C', C. unfold in_place. rewrite tools_joints.
  apply Nat.leb_le in L. rewrite L. apply Nat.leb_le in L.
  set (qr := map degToRad (firstn (nr_of_joints (sv_original s)) q)).
  assert (LQ : length qr = nr_of_joints (sv_original s)) by (unfold qr; rewrite map_length, firstn_length; lia).
  destruct (chain_fk_total (sv_original s) fid qr LQ) as (f & F1). exists f. change (chain_fk fid) with chain_fwd_kin in F1.
  rewrite F1. rewrite (tools_fwd _ _ _ f LQ F1). auto.
Qed.

Theorem restored_forward : forall fuel s os s' dr s'', sv_chain s = sv_original s ->
  tool_run fuel s os = Returns s' -> restoreOriginalChain fuel dr s' = Returns s'' ->
  forall q, fwdKin s'' q = fwdKin s q.
Proof.
  intros fuel s os s' dr s'' C R R2 q. destruct (run_chain fuel os s s' [] ltac:(cbn; now rewrite app_nil_r) R) as [O' _].
  unfold restoreOriginalChain in R2. destruct (st_update _ _ _ _); [|discriminate|discriminate]. injection R2 as <-.
  unfold fwdKin. cbn [sv_chain]. now rewrite O', C.
Qed.

(** ** The inverse kinematics after tool changes *)
Lemma step_error : forall fuel s o s', tool_step fuel s o = Returns s' ->
  ik_error (sv_ik s) = E_SOLUTION_NOT_FOUND -> ik_error (sv_ik s') = E_SOLUTION_NOT_FOUND.
Proof.
  intros fuel s [[x|] dr] s'; unfold tool_step, appendLink, restoreOriginalChain, st_update; cbn [fst snd];
  destruct (build _ _ _) as [[[[p ss] rv]|]| |]; try discriminate; intros [= <-]; cbn; auto.
Qed.
Lemma run_error : forall fuel os s s', tool_run fuel s os = Returns s' ->
  ik_error (sv_ik s) = E_SOLUTION_NOT_FOUND -> ik_error (sv_ik s') = E_SOLUTION_NOT_FOUND.
Proof.
  induction os as [|o os IH]; intros s s'; cbn; [now intros [= <-]|].
  destruct (tool_step fuel s o) as [s1| |] eqn:T; [|discriminate|discriminate]. intros R E. eapply IH; [exact R|]. eapply step_error; eassumption.
Qed.
Lemma stuck_inv : forall find s x q fr, ik_error (sv_ik s) = E_SOLUTION_NOT_FOUND ->
  invKin find s x q fr = None \/ exists s', invKin find s x q fr = Some (None, s').
Proof.
  intros find s x q fr E. unfold invKin, cart_to_jnt. rewrite E, Z.eqb_refl.
  destruct (joints_in _ _) as [qr|]; [|auto]. destruct fr.
  - right. eexists. cbn. reflexivity.
  - destruct (chain_fwd_kin _ _); [right; eexists; cbn; reflexivity|auto].
  - right. eexists. reflexivity.
Qed.
Theorem lost_forever : forall fuel s x dr s1 os s2 find xd q fr,
  build fuel dr (fromChain (sv_chain s ++ [tool_segment x])) = Returns None ->
  appendLink fuel dr x s = Returns s1 -> tool_run fuel s1 os = Returns s2 ->
  forall r s3, invKin find s2 xd q fr = Some (r, s3) -> r = None.
Proof.
  intros fuel s x dr s1 os s2 find xd q fr B A R r s3 H.
  assert (E1 : ik_error (sv_ik s1) = E_SOLUTION_NOT_FOUND).
  { unfold appendLink, st_update in A. change (mk_segment fixed_joint (vectorToFrame x)) with (tool_segment x) in A.
    rewrite B in A. injection A as <-. reflexivity. }
  pose proof (run_error _ _ _ _ R E1) as E2. destruct (stuck_inv find s2 xd q fr E2) as [X|(s' & X)]; congruence.
Qed.

Theorem restored_inverse : forall fuel dr0 c sel s os s' s'',
  sv_open fuel dr0 c sel = Returns (Some s) -> tool_run fuel s os = Returns s' ->
  ik_error (sv_ik s') <> E_SOLUTION_NOT_FOUND -> restoreOriginalChain fuel dr0 s' = Returns s'' -> s'' = s.
Proof.
  intros fuel dr0 c sel s os s' s'' O R NE R2.
  unfold sv_open, st_create in O. destruct (build fuel dr0 (fromChain c)) as [[[[p ss] rv]|]| |] eqn:B; try discriminate. injection O as <-.
  assert (G : forall os s s', tool_run fuel s os = Returns s' -> ik_error (sv_ik s') <> E_SOLUTION_NOT_FOUND ->
     sv_original s' = sv_original s /\ ik_sel (sv_ik s') = ik_sel (sv_ik s) /\ ik_error (sv_ik s') = ik_error (sv_ik s)).
  { clear. induction os as [|o os IH]; intros s s'; cbn; [now intros [= <-]|].
    destruct (tool_step fuel s o) as [s1| |] eqn:T; [|discriminate|discriminate]. intros R NE.
    destruct (IH _ _ R NE) as (A1 & A2 & A3). rewrite A1, A2, A3. rewrite A3 in NE.
    destruct o as [[x|] dr]; unfold tool_step, appendLink, restoreOriginalChain, st_update in T; cbn [fst snd] in T;
    destruct (build _ _ _) as [[[[p ss] rv]|]| |]; try discriminate; injection T as <-; cbn in *; auto; congruence. }
  destruct (G _ _ _ R NE) as (A1 & A2 & A3). cbn in A1, A2, A3.
  unfold restoreOriginalChain, st_update in R2. rewrite A1, B in R2. injection R2 as <-. now rewrite A2, A3.
Qed.

(** ** Changes of origin and differences *)
Lemma frame_zero : frameToVector fid = repeat 0 6.
Proof. unfold frameToVector. cbn [fM fp fid]. rewrite GetRot_id. reflexivity. Qed.
Theorem origin_composes : forall a b, regular_log (fM (fmul (vectorToFrame b) (vectorToFrame a))) ->
  vectorToFrame (changeOrigin a b) = fmul (vectorToFrame b) (vectorToFrame a).
Proof. intros a b H. unfold changeOrigin. apply frame_round_trip; [|exact H]. apply rot_mm; apply always_rigid. Qed.
Theorem origin_inverse : forall x xi, vectorToFrame xi = finv (vectorToFrame x) ->
  changeOrigin x xi = repeat 0 6 /\ changeOrigin xi x = repeat 0 6.
Proof.
  intros x xi E. unfold changeOrigin. rewrite E. rewrite fmul_inv_l, fmul_inv_r by apply always_rigid. split; apply frame_zero.
Qed.
Theorem origin_assoc : forall a b c, regular_log (fM (fmul (vectorToFrame b) (vectorToFrame a))) ->
  regular_log (fM (fmul (vectorToFrame c) (vectorToFrame b))) ->
  changeOrigin (changeOrigin a b) c = changeOrigin a (changeOrigin b c).
Proof. intros a b c H1 H2. unfold changeOrigin at 1 3. rewrite !origin_composes by assumption. now rewrite fmul_assoc. Qed.

Lemma rot_diff_same : forall a, rotation_matrix a -> rot_diff a a = vzero.
Proof.
  intros a RA. unfold rot_diff. rewrite rot_TM by exact RA. rewrite GetRot_id. unfold mv, vzero. cbn. f_equal; ring.
Qed.
Lemma diff_same : forall f, rigid f -> frame_diff f f = Tw vzero vzero.
Proof.
  intros f H. unfold frame_diff. rewrite rot_diff_same by exact H. f_equal. destruct (fp f). unfold vsub, vadd, vneg, vzero. cbn. f_equal; ring.
Qed.
Theorem pose_diff_zero : forall x, poseDiff x x = repeat 0 6.
Proof. intros x. unfold poseDiff. rewrite diff_same by apply always_rigid. reflexivity. Qed.

Lemma rot_diff_spec : forall a b, rotation_matrix a -> rotation_matrix b -> regular_log (mm (mT a) b) ->
  mm (rot_of (rot_diff a b)) a = b.
Proof.
  intros a b RA RB REG. assert (RM : rotation_matrix (mm (mT a) b)) by (apply rot_mm; [now apply rot_mT|exact RB]).
  assert (BK : mm a (mm (mT a) b) = b) by (rewrite <- mm_assoc; destruct RA as [-> _]; apply mm_id_l).
  assert (X : mm (mT a) b = mid \/ exists u t, GetRot (mm (mT a) b) = vscale t u /\ unit u /\ kdl_eps <= t /\ Rot2 u t = mm (mT a) b).
  { destruct REG as [O|(S1 & S2 & S3)].
    - right. destruct (GetRot_generic _ RM O) as (u & t & E & U & [T _] & E2). eauto 8.
    - destruct (Classical_Prop.classic (mm (mT a) b = mid)) as [E|NE]; [now left|right].
      destruct (GetRot_half _ RM S1 S2 S3 NE) as (u & E & U & E2). exists u, PI. repeat split; auto. unfold kdl_eps. pose proof PI2_1. lra. }
  destruct X as [X|(u & t & E & U & T & E2)].
  - assert (b = a) as -> by (rewrite <- BK, X; apply mm_id_r). rewrite rot_diff_same, rot_of_zero by exact RA. apply mm_id_l.
  - unfold rot_diff. rewrite E. replace (mv a (vscale t u)) with (vscale t (mv a u)) by (destruct u; unfold mv, vscale; cbn; f_equal; ring).
    rewrite rot_of_scaled by (auto using unit_rot).
    rewrite Rot2_conj by exact RA. rewrite !mm_assoc, rot_TM, mm_id_r by exact RA. now rewrite E2.
Qed.
Theorem pose_diff_spec : forall x y, let d := vectorToTwist (poseDiff x y) in
  fp (vectorToFrame x) = vadd (fp (vectorToFrame y)) (t_vel d) /\
  (regular_log (mm (mT (fM (vectorToFrame y))) (fM (vectorToFrame x))) ->
   fM (vectorToFrame x) = mm (rot_of (t_rot d)) (fM (vectorToFrame y))).
Proof.
  intros x y d. unfold d, poseDiff. rewrite (proj1 twist_round_trip). unfold frame_diff. cbn [t_vel t_rot]. split.
  - destruct (fp (vectorToFrame x)), (fp (vectorToFrame y)). unfold vsub, vadd, vneg. cbn. f_equal; ring.
  - intros H. symmetry. apply rot_diff_spec; auto using always_rigid.
Qed.

(** ** Frames of reference *)
Theorem tcp_is_base : forall find s x q qr f,
  joints_in (sv_chain s) q = Some qr -> chain_fwd_kin (sv_chain s) qr = Some f ->
  rigid f -> regular_log (fM (fmul f (vectorToFrame x))) ->
  invKin find s x q TCP_FRAME = invKin find s (frameToVector (fmul f (vectorToFrame x))) q BASE_FRAME.
Proof.
  intros find s x q qr f J1 F1 RF RL. unfold invKin. rewrite J1, F1. cbn [option_map].
  rewrite frame_round_trip; [reflexivity| |exact RL]. apply rot_mm; [exact RF|apply always_rigid].
Qed.
Theorem other_refused : forall find s x q, (nr_of_joints (sv_chain s) <= length q)%nat -> invKin find s x q OTHER_FRAME = Some (None, s).
Proof. intros find s x q L. unfold invKin, joints_in. apply Nat.leb_le in L. now rewrite L. Qed.

(** ** The one-step solver *)
Lemma zip_length : forall A B C (f : A -> B -> C) l m, length l = length m -> length (zip_with f l m) = length l.
Proof. intros. unfold zip_with. rewrite map_length, combine_length. lia. Qed.
Lemma zip_nth : forall A B C (f : A -> B -> C) l m j a b, nth_error l j = Some a -> nth_error m j = Some b ->
  nth_error (zip_with f l m) j = Some (f a b).
Proof.
  induction l as [|x l IH]; intros m j a b; [destruct j; discriminate|]. destruct m as [|y m]; [destruct j; discriminate|].
  destruct j; cbn; [intros [= ->] [= ->]; reflexivity|]. apply IH.
Qed.
Lemma diff_length : forall cols e, length (computeDiffInvKin cols e) = length cols.
Proof. intros. unfold computeDiffInvKin. destruct (fdiv _ _); unfold jacT; now rewrite !map_length. Qed.

Definition columns_ok (jac : chain -> list R -> option (list (list R))) : Prop :=
  forall c q cols, jac c q = Some cols -> length cols = nr_of_joints c.

Lemma id_ok : forall jac k c qi p qo q, id_cart_to_jnt jac k c qi p qo = (E_NOERROR, q) ->
  id_nj k = nr_of_joints c /\ length qi = id_nj k /\ length qo = id_nj k /\ length (id_min k) = id_nj k /\ length (id_max k) = id_nj k /\
  exists f cols, chain_fwd_kin c qi = Some f /\ jac c qi = Some cols /\
    q = zip_with clamp_high (id_max k) (zip_with clamp_low (id_min k)
          (zip_with (fun a d => option_map (Rplus a) d) qi (computeDiffInvKin cols (twist_list (frame_diff f p))))).
Proof.
  intros jac k c qi p qo q. unfold id_cart_to_jnt.
  destruct (Nat.eqb (id_nj k) (nr_of_joints c)) eqn:E1; cbn [negb]; [|discriminate]. apply Nat.eqb_eq in E1.
  destruct (negb _ || negb _ || negb _ || negb _) eqn:E2; [discriminate|].
  rewrite !orb_false_iff, !negb_false_iff, !Nat.eqb_eq in E2.
  destruct (chain_fwd_kin c qi) as [f|] eqn:F1; [|discriminate]. destruct (jac c qi) as [cols|] eqn:J1; [|discriminate].
  intros [= <-]. repeat split; try (symmetry; tauto); try tauto. exists f, cols. auto.
Qed.

Theorem id_within : forall jac k c qi p qo q, columns_ok jac -> id_cart_to_jnt jac k c qi p qo = (E_NOERROR, q) ->
  length q = nr_of_joints c /\
  forall j v lo hi, nth_error q j = Some (Some v) -> nth_error (id_min k) j = Some lo -> nth_error (id_max k) j = Some hi -> lo <= hi ->
    lo <= v <= hi.
Proof.
  intros jac k c qi p qo q CO H. destruct (id_ok _ _ _ _ _ _ _ H) as (N & L1 & L2 & L3 & L4 & f & cols & F1 & J1 & ->).
  pose proof (CO _ _ _ J1) as LC.
  set (z := zip_with (fun a d => option_map (Rplus a) d) qi _).
  assert (LZ : length z = id_nj k) by (unfold z; rewrite zip_length; [exact L1|rewrite diff_length; congruence]).
  assert (LW : length (zip_with clamp_low (id_min k) z) = id_nj k) by (rewrite zip_length; congruence).
  split; [rewrite zip_length; congruence|]. intros j v lo hi V LO HI LH.
  destruct (nth_error z j) as [x|] eqn:Z1.
  - rewrite (zip_nth _ _ _ clamp_high _ _ j hi (clamp_low lo x) HI (zip_nth _ _ _ clamp_low _ _ j lo x LO Z1)) in V.
    destruct x as [x|]; [|discriminate]. cbn in V. injection V as <-. unfold Rltb.
    repeat destruct (Rlt_dec _ _); lra.
  - apply nth_error_None in Z1. assert (j < length (id_min k))%nat by (apply nth_error_Some; congruence). lia.
Qed.

Lemma dot6_zero_r : forall l n, dot6 l (repeat 0 n) = 0.
Proof.
  induction l as [|x l IH]; intros [|n]; cbn; try reflexivity. unfold dot6 in *. cbn. rewrite IH. ring.
Qed.
Lemma dot6_comm : forall a b, dot6 a b = dot6 b a.
Proof. induction a as [|x a IH]; intros [|y b]; unfold dot6 in *; cbn; try reflexivity. rewrite IH. ring. Qed.
Lemma jacT_zero : forall cols n, jacT cols (repeat 0 n) = repeat 0 (length cols).
Proof. intros cols n. unfold jacT. induction cols as [|c cols IH]; cbn; [reflexivity|]. now rewrite dot6_zero_r, IH. Qed.
Definition six (cols : list (list R)) : Prop := Forall (fun c => length c = 6%nat) cols.
Lemma add6_len : forall a b n, length a = n -> length b = n -> length (add6 a b) = n.
Proof. intros. unfold add6. rewrite map_length, combine_length. lia. Qed.
Lemma jacv_len : forall cols v, six cols -> length (jacv cols v) = 6%nat.
Proof.
  induction cols as [|c cols IH]; intros v S6; [reflexivity|]. destruct v as [|x v]; [reflexivity|].
  inversion S6; subst. unfold jacv in *. cbn [combine map fold_right fst snd]. apply add6_len; [now rewrite map_length|now apply IH].
Qed.
Lemma scale_zero : forall n b, map (Rmult b) (repeat 0 n) = repeat 0 n.
Proof. induction n; intros; cbn; [reflexivity|]. rewrite IHn. f_equal. ring. Qed.
Lemma jacv_scale : forall cols v b, jacv cols (map (Rmult b) v) = map (Rmult b) (jacv cols v).
Proof.
  assert (AD : forall b x y, add6 (map (Rmult b) x) (map (Rmult b) y) = map (Rmult b) (add6 x y)).
  { intros b. induction x as [|p x IH]; intros [|q y]; unfold add6 in *; cbn; try reflexivity. rewrite IH. f_equal. ring. }
  induction cols as [|c cols IH]; intros [|x v] b; unfold jacv in *; cbn [combine map fold_right fst snd]; try (symmetry; apply scale_zero).
  rewrite IH, <- AD. f_equal. rewrite map_map. apply map_ext. intros. ring.
Qed.
Lemma jacv_zero : forall cols n, six cols -> jacv cols (repeat 0 n) = repeat 0 6.
Proof.
  induction cols as [|c cols IH]; intros [|n] S6; try reflexivity. inversion S6; subst.
  unfold jacv in *. cbn [repeat combine map fold_right fst snd]. rewrite IH by assumption.
  do 7 (destruct c as [|? c]; try discriminate). unfold add6. cbn. repeat (apply f_equal2; [ring|]). reflexivity.
Qed.

Theorem id_at_target : forall jac k c qi p qo q, columns_ok jac -> (forall cols, jac c qi = Some cols -> six cols) ->
  chain_fwd_kin c qi = Some p -> rigid p -> id_cart_to_jnt jac k c qi p qo = (E_NOERROR, q) ->
  q = repeat None (nr_of_joints c).
Proof.
  intros jac k c qi p qo q CO S6 FK RG H. destruct (id_ok _ _ _ _ _ _ _ H) as (N & L1 & L2 & L3 & L4 & f & cols & F1 & J1 & ->).
  pose proof (CO _ _ _ J1) as LC. rewrite FK in F1. injection F1 as <-. rewrite diff_same by exact RG.
  change (twist_list (Tw vzero vzero)) with (repeat 0 6). unfold computeDiffInvKin.
  rewrite jacT_zero, jacv_zero by (eapply S6; eassumption). rewrite dot6_zero_r.
  assert (D : fdiv 0 0 = None) by (unfold fdiv, Reqb; destruct (Req_EM_T 0 0); [reflexivity|congruence]).
  rewrite D. rewrite <- LC. rewrite <- N in LC.
  assert (G : forall (l : list (list R)) a lo hi, length a = length l -> length lo = length l -> length hi = length l ->
    zip_with clamp_high hi (zip_with clamp_low lo (zip_with (fun a d => option_map (Rplus a) d) a (map (fun _ => None) l))) = repeat None (length l)).
  { clear. induction l as [|x l IH]; intros [|a A] [|lo LO] [|hi HI]; try discriminate; intros; [reflexivity|].
    unfold zip_with in *. cbn. f_equal. apply IH; cbn in *; lia. }
  apply G; congruence.
Qed.

(** the step is the best multiple of the transposed Jacobian *)
Definition sub6 (a b : list R) : list R := map (fun ab => fst ab - snd ab) (combine a b).
Lemma dot6_sub : forall a w b, length a = length w ->
  dot6 (sub6 a (map (Rmult b) w)) (sub6 a (map (Rmult b) w)) = dot6 a a - 2 * b * dot6 a w + b * b * dot6 w w.
Proof.
  induction a as [|x a IH]; intros [|y w] b L; try discriminate; unfold dot6, sub6 in *; cbn; [ring|].
  injection L as L. rewrite IH by exact L. ring.
Qed.
Lemma dot6_pos : forall w, 0 <= dot6 w w.
Proof. induction w as [|x w IH]; unfold dot6 in *; cbn; [lra|]. nra. Qed.
Theorem id_best : forall cols e dq, six cols -> length e = 6%nat ->
  computeDiffInvKin cols e = map Some dq ->
  forall b, dot6 (sub6 e (jacv cols dq)) (sub6 e (jacv cols dq)) <=
    dot6 (sub6 e (jacv cols (map (Rmult b) (jacT cols e)))) (sub6 e (jacv cols (map (Rmult b) (jacT cols e)))).
Proof.
  intros cols e dq S6 L6 H b. unfold computeDiffInvKin in H.
  set (w := jacv cols (jacT cols e)) in *. pose proof (jacv_len cols (jacT cols e) S6) as LW. fold w in LW.
  destruct (fdiv (dot6 e w) (dot6 w w)) as [al|] eqn:FD.
  - assert (E : dq = map (Rmult al) (jacT cols e)).
    { clear -H. revert dq H. induction (jacT cols e) as [|x l IH]; intros [|d dq] H; try discriminate; [reflexivity|].
      cbn in H |- *. injection H as <- H. f_equal. now apply IH. }
    rewrite E, !jacv_scale. fold w. rewrite !dot6_sub by congruence.
    unfold fdiv, Reqb in FD. destruct (Req_EM_T (dot6 w w) 0) as [Z|NZ]; [discriminate|].
    injection FD as <-. pose proof (dot6_pos w) as P0. assert (PW : 0 < dot6 w w) by lra.
    set (ew := dot6 e w). set (ww := dot6 w w) in *.
    assert (Q : 0 <= ww * ((b - ew / ww) * (b - ew / ww))) by (apply Rmult_le_pos; [lra|apply Rle_0_sqr]).
    replace (ww * ((b - ew / ww) * (b - ew / ww))) with (b * b * ww - 2 * b * ew + ew / ww * (ew / ww) * ww) in Q by (field; lra).
    replace (2 * (ew / ww) * ew) with (2 * (ew / ww * (ew / ww) * ww)) by (field; lra). lra.
  - destruct cols as [|c0 cols0]; [|destruct dq; discriminate]. destruct dq; [|discriminate].
    cbn [jacT map]. lra.
Qed.

(** ** What the closed-form solver returns *)
Lemma collect_valid : forall guess cs i acc l, collect guess cs i acc = Some l ->
  forall r j, In (r, j) l -> In (r, j) acc \/ exists k c, j = (i + k)%nat /\ nth_error cs k = Some c /\ c_valid c = true.
Proof.
  intros guess. induction cs as [|c cs IH]; intros i acc l; cbn; [intros [= <-]; auto|].
  destruct (c_valid c) eqn:V.
  - destruct (sum_diffs guess (c_q c)) as [x|]; [|discriminate]. intros H r j I.
    destruct (IH _ _ _ H r j I) as [I2|(k & d & -> & N & W)].
    + apply SelectorFacts.insert_in in I2. destruct I2 as [[= -> ->]|I2]; [|auto]. right. exists 0%nat, c. rewrite Nat.add_0_r. auto.
    + right. exists (S k), d. repeat split; auto; lia.
  - intros HC r j I. destruct (IH _ _ _ HC r j I) as [I2|(k & d & -> & N & W)]; [auto|]. right. exists (S k), d. repeat split; auto; lia.
Qed.
Lemma least_valid : forall s g s', find_least s g = Some (true, s') ->
  exists c, In c (s_configs s) /\ c_valid c = true /\ retrievePose s' = Some (c_q c).
Proof.
  intros s g s'. unfold find_least. destruct (s_last s) as [i|].
  - destruct (nth_error (s_configs s) i) as [c|] eqn:N; [|discriminate]. destruct (c_valid c) eqn:V; [|discriminate].
    intros [= <-]. exists c. split; [eapply nth_error_In; eassumption|auto].
  - destruct (collect g (s_configs s) 0 []) as [[|[r i] l]|] eqn:C; try discriminate.
    destruct (nth_error (s_configs s) i) as [c|] eqn:N; [|discriminate]. intros [= <-]. exists c.
    split; [eapply nth_error_In; eassumption|]. split; [|reflexivity].
    destruct (collect_valid _ _ _ _ _ C r i (or_introl eq_refl)) as [[]|(k & d & -> & N2 & V)]. cbn in N. congruence.
Qed.
Lemma discard_valid : forall cs l, discard cs = Some l -> forall c, In c l -> c_valid c = true -> exists d, In d cs /\ c_valid d = true /\ c_q d = c_q c.
Proof.
  induction cs as [|d cs IH]; cbn; intros l H c I V; [injection H as <-; destruct I|].
  destruct (if c_valid d then _ else _) as [ok|]; [|discriminate]. destruct (discard cs) as [l'|]; [|discriminate]. injection H as <-.
  destruct I as [<-|I].
  - cbn in V. apply andb_true_iff in V. exists d. cbn. tauto.
  - destruct (IH l' eq_refl c I V) as (x & A & B & C). exists x. auto.
Qed.
Lemma gait_valid : forall s g s', find_gait s g = Some (true, s') ->
  exists c, In c (s_configs s) /\ c_valid c = true /\ retrievePose s' = Some (c_q c).
Proof.
  intros s g s'. unfold find_gait. destruct (negb _); [discriminate|]. destruct (discard (s_configs s)) as [l|] eqn:D; [|discriminate].
  intros H. apply least_valid in H. destruct H as (c & I & V & E). cbn in I.
  destruct (discard_valid _ _ D c I V) as (d & A & B & C). exists d. rewrite C. auto.
Qed.
(** the strategies of the library *)
Definition strategy (find : selector -> list R -> option (bool * selector)) : Prop := find = find_least \/ find = find_gait.

Lemma validate_in : forall q lo hi, validate q lo hi = Some true ->
  forall i x l h, nth_error q i = Some x -> nth_error lo i = Some l -> nth_error hi i = Some h -> l - kdl_eps <= x <= h + kdl_eps.
Proof.
  induction q as [|y q IH]; intros lo hi H [|i] x l h; try discriminate.
  - destruct lo as [|a lo], hi as [|b hi]; try discriminate. cbn in H. destruct (checkJointInLimits y a b) eqn:C; [|discriminate].
    cbn. intros [= <-] [= <-] [= <-]. now apply SelectorFacts.checkJointInLimits_iff.
  - destruct lo as [|a lo], hi as [|b hi]; try discriminate. cbn in H. destruct (checkJointInLimits y a b) eqn:C; [|discriminate]. cbn. now apply IH.
Qed.
Lemma build_in : forall lo hi sols l, build_configs lo hi sols = Some l ->
  forall c, In c l -> In (c_q c) sols /\ validate (c_q c) lo hi = Some (c_valid c).
Proof.
  induction sols as [|q sols IH]; cbn; intros l H c I; [injection H as <-; destruct I|].
  destruct (validate q lo hi) as [v|] eqn:V; [|discriminate]. destruct (build_configs lo hi sols) as [l'|]; [|discriminate]. injection H as <-.
  destruct I as [<-|I]; [cbn; auto|]. destruct (IH l' eq_refl c I). auto.
Qed.

Theorem returned_candidate : forall find s xd qg qd s', strategy find -> invKin find s xd qg BASE_FRAME = Some (Some qd, s') ->
  exists flag cands q, ik_solve (ik_poe (sv_ik s)) (map sub_step (ik_steps (sv_ik s))) (ik_rev (sv_ik s)) (vectorToFrame xd) = Some (flag, cands) /\
    In q cands /\ qd = map radToDeg q /\
    forall i x lo hi, nth_error q i = Some x -> nth_error (s_min (ik_sel (sv_ik s))) i = Some lo ->
      nth_error (s_max (ik_sel (sv_ik s))) i = Some hi -> lo - kdl_eps <= x <= hi + kdl_eps.
Proof.
  intros find s xd qg qd s' ST. unfold invKin. destruct (joints_in _ _) as [qr|]; [|discriminate].
  unfold cart_to_jnt. destruct (Z.eqb _ _) eqn:EZ; [apply Z.eqb_eq in EZ; rewrite EZ; discriminate|].
  destruct (ik_solve _ _ _ _) as [[flag cands]|] eqn:IK; [|discriminate].
  destruct (configure _ _) as [[[] s1]|] eqn:CF; [|discriminate|discriminate].
  destruct (find s1 qr) as [[[] s2]|] eqn:FD; [|discriminate|discriminate].
  destruct (retrievePose s2) as [q|] eqn:RP; [|discriminate]. intros H.
  exists flag, cands, q. split; [reflexivity|].
  assert (Q : qd = map radToDeg q).
  { destruct flag; cbn in H; congruence. }
  unfold configure in CF. destruct (build_configs _ _ _) as [l|] eqn:BC; [|discriminate]. injection CF as EX <-.
  assert (V : exists c, In c l /\ c_valid c = true /\ retrievePose s2 = Some (c_q c)) by (destruct ST; subst find; [apply least_valid in FD|apply gait_valid in FD]; exact FD).
  destruct V as (c & I & V & E). rewrite RP in E. injection E as ->.
  destruct (build_in _ _ _ _ BC c I) as [IC VC]. rewrite V in VC.
  split; [exact IC|]. split; [exact Q|]. now apply validate_in.
Qed.
