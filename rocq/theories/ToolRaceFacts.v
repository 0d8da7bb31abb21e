(** Proofs about the solver used by several threads. *)
From Coq Require Import Reals List Bool Arith Lia.
From Verif Require Import Kdl KdlRot Trig KinRep KdlSolver Ft Tree ToolRace ToolRaceSpec.
Import ListNotations.
Open Scope nat_scope.
Local Notation length := List.length.

(** ** Programs when the number of joints does not change *)
Definition answer_of (p : prog) : option tresult :=
  match p with Done None => Some TFalse | Done (Some l) => Some (TTrue l) | Undef => Some TUndef | _ => None end.
Fixpoint skip (n : nat) (p : prog) : prog := match p with ReadJoints k => skip n (k n) | _ => p end.
Lemma skip_answer n p r : answer_of p = Some r -> skip n p = p.
Proof. destruct p; cbn; congruence. Qed.

Lemma skip_fill f n : forall src motor k, motor <= n ->
  skip n (fill f n src motor k) = if Nat.leb (n - motor) (length src) then skip n (k (map f (firstn (n - motor) src))) else Undef.
Proof.
  induction src as [|x src IH]; intros motor k L; cbn [fill skip].
  - destruct (Nat.ltb_spec motor n) as [H|H]; destruct (Nat.leb_spec (n - motor) (length (@nil R))) as [J|J]; cbn in J; try lia; cbn; [reflexivity|].
    replace (n - motor) with 0 by lia. reflexivity.
  - destruct (Nat.ltb_spec motor n) as [H|H].
    + rewrite IH by lia. cbn [length]. destruct (Nat.leb_spec (n - Datatypes.S motor) (length src)) as [J|J];
        destruct (Nat.leb_spec (n - motor) (Datatypes.S (length src))) as [J'|J']; try lia; [|reflexivity].
      replace (n - motor) with (Datatypes.S (n - Datatypes.S motor)) by lia. reflexivity.
    + destruct (Nat.leb_spec (n - motor) (length (x :: src))) as [J|J]; [|cbn in J; lia].
      replace (n - motor) with 0 by lia. reflexivity.
Qed.
Lemma skip_load f n src k : skip n (load f src k) = if Nat.leb n (length src) then skip n (k (map f (firstn n src))) else Undef.
Proof. unfold load. cbn [skip]. rewrite skip_fill by lia. rewrite Nat.sub_0_r. reflexivity. Qed.
Lemma skip_finish f n r : (forall l, r = Some l -> length l = n) ->
  skip n (finish f r) = match r with None => Done None | Some l => Done (Some (map f l)) end.
Proof.
  intros L. destruct r as [l|]; [|reflexivity]. unfold finish. rewrite skip_load. rewrite (L l eq_refl), Nat.leb_refl.
  rewrite <- (L l eq_refl), firstn_all. reflexivity.
Qed.

(** forward kinematics is defined on vectors of the right size *)
Lemma nr_cons s c : nr_of_joints (s :: c) = (if is_fixed (s_joint s) then 0 else 1) + nr_of_joints c.
Proof. unfold nr_of_joints. cbn. destruct (is_fixed (s_joint s)); reflexivity. Qed.
Lemma nr_app c d : nr_of_joints (c ++ d) = nr_of_joints c + nr_of_joints d.
Proof. unfold nr_of_joints. rewrite filter_app, app_length. reflexivity. Qed.
Lemma fk_some : forall c a q, length q = nr_of_joints c -> exists h, chain_fk a c q = Some h.
Proof.
  induction c as [|s c IH]; intros a q L.
  - destruct q; [eexists; reflexivity|discriminate].
  - rewrite nr_cons in L. cbn. destruct (is_fixed (s_joint s)); [apply IH; exact L|].
    destruct q; [discriminate|]. apply IH. cbn in L. lia.
Qed.
Lemma joints_len c q qr : joints_in c q = Some qr -> length qr = nr_of_joints c.
Proof. unfold joints_in. destruct (Nat.leb_spec (nr_of_joints c) (length q)); [|discriminate]. intros [= <-]. rewrite map_length, firstn_length. lia. Qed.
Lemma jnt_some c qr : length qr = nr_of_joints c -> chain_fwd_kin c qr = Some (jnt_to_cart c qr).
Proof. intros L. unfold jnt_to_cart. destruct (fk_some c fid qr L) as (h & E). unfold chain_fwd_kin. rewrite E. reflexivity. Qed.

Section Solvers.
Context (ik : chain -> list R -> frame -> option (list R)) (k : chain_solvers).
Hypothesis Z : sized ik k.

(** the questions about positions and velocities take the lock once *)
Lemma kin_shape n x : kinematic x ->
  (skip n (code ik k x) = Undef /\ forall s, nr_of_joints (sv_chain s) = n -> alone ik k s x = TUndef) \/
  exists K, skip n (code ik k x) = Locked K /\ forall s, nr_of_joints (sv_chain s) = n -> answer_of (skip n (K (sv_chain s))) = Some (alone ik k s x).
Proof.
  destruct Z as (Z1 & Z2 & _). destruct x as [q|xd q fr|q xdot fr|q|q qd qdd f fr]; intros KI; try contradiction; cbn [code].
  - unfold p_fwdKin. rewrite skip_load. destruct (Nat.leb_spec n (length q)) as [L|L].
    + right. eexists. split; [reflexivity|]. intros s E. cbn [skip answer_of alone]. unfold fwdKin.
      destruct (joints_in (sv_chain s) q) as [qr|] eqn:J.
      * pose proof (joints_len _ _ _ J) as Lq. unfold joints_in in J. rewrite E in J. rewrite (proj2 (Nat.leb_le _ _) L) in J. injection J as <-.
        rewrite (jnt_some _ _ Lq). reflexivity.
      * unfold joints_in in J. rewrite E in J. rewrite (proj2 (Nat.leb_le _ _) L) in J. discriminate.
    + left. split; [reflexivity|]. intros s E. cbn. unfold fwdKin, joints_in. rewrite E. rewrite (proj2 (Nat.leb_gt _ _) L). reflexivity.
  - unfold p_invKin. rewrite skip_load. destruct (Nat.leb_spec n (length q)) as [L|L].
    + right. eexists. split; [reflexivity|]. intros s E. cbn [alone]. unfold invKin_with.
      destruct (joints_in (sv_chain s) q) as [qr|] eqn:J; unfold joints_in in J; rewrite E in J; rewrite (proj2 (Nat.leb_le _ _) L) in J; [|discriminate].
      injection J as <-. assert (length (map degToRad (firstn n q)) = nr_of_joints (sv_chain s)) as Lq by (rewrite map_length, firstn_length; lia).
      destruct fr; [| |reflexivity].
      * rewrite skip_finish by (intros l El; rewrite <- E; exact (Z1 _ _ _ _ El)). destruct (ik _ _ _); reflexivity.
      * rewrite (jnt_some _ _ Lq). cbn [option_map].
        rewrite skip_finish by (intros l El; rewrite <- E; exact (Z1 _ _ _ _ El)). destruct (ik _ _ _); reflexivity.
    + left. split; [reflexivity|]. intros s E. cbn. unfold invKin_with, joints_in. rewrite E. rewrite (proj2 (Nat.leb_gt _ _) L). reflexivity.
  - unfold p_diffInvKin. rewrite skip_load. destruct (Nat.leb_spec n (length q)) as [L|L].
    + right. eexists. split; [reflexivity|]. intros s E. cbn [alone]. unfold diffInvKin.
      destruct (joints_in (sv_chain s) q) as [qr|] eqn:J; unfold joints_in in J; rewrite E in J; rewrite (proj2 (Nat.leb_le _ _) L) in J; [|discriminate].
      injection J as <-. assert (length (map degToRad (firstn n q)) = nr_of_joints (sv_chain s)) as Lq by (rewrite map_length, firstn_length; lia).
      destruct fr; [| |reflexivity].
      * rewrite skip_finish by (intros l El; rewrite <- E; exact (Z2 _ _ _ _ El)). destruct (c_vel _ _ _ _); reflexivity.
      * rewrite (jnt_some _ _ Lq). cbn [option_map].
        rewrite skip_finish by (intros l El; rewrite <- E; exact (Z2 _ _ _ _ El)). destruct (c_vel _ _ _ _); reflexivity.
    + left. split; [reflexivity|]. intros s E. cbn. unfold diffInvKin, joints_in. rewrite E. rewrite (proj2 (Nat.leb_gt _ _) L). reflexivity.
Qed.

Lemma map_same l : map same l = l.
Proof. induction l as [|x l IH]; [reflexivity|]. cbn. rewrite IH. reflexivity. Qed.
Lemma dyn_finish n c q qd qdd fs : nr_of_joints c = n -> length q = n -> length qd = n -> length qdd = n ->
  answer_of (skip n (finish same (c_dyn k c q qd qdd fs))) =
  Some (if Nat.eqb (length fs) (length c) then match c_dyn k c q qd qdd fs with None => TFalse | Some t => TTrue t end else TFalse).
Proof.
  destruct Z as (_ & _ & Z3). intros E L1 L2 L3. specialize (Z3 c q qd qdd fs).
  rewrite skip_finish by (intros l El; rewrite <- E; apply (Z3 l El); congruence).
  destruct (c_dyn k c q qd qdd fs) as [l|] eqn:El.
  - destruct (Z3 l eq_refl) as (_ & Lf); try congruence. rewrite Lf, Nat.eqb_refl, map_same. reflexivity.
  - destruct (Nat.eqb _ _); reflexivity.
Qed.

(** the one about gravity reads the number of segments first *)
Lemma gravity_shape n q :
  (skip n (code ik k (Gravity q)) = Undef /\ forall s, nr_of_joints (sv_chain s) = n -> alone ik k s (Gravity q) = TUndef) \/
  exists K, skip n (code ik k (Gravity q)) = ReadSegments (fun m => Locked (K m)) /\
    forall m s, nr_of_joints (sv_chain s) = n ->
      answer_of (skip n (K m (sv_chain s))) = Some (if Nat.eqb m (length (sv_chain s)) then alone ik k s (Gravity q) else TFalse).
Proof.
  cbn [code]. unfold p_gravity. rewrite skip_load. destruct (Nat.leb_spec n (length q)) as [L|L].
  - right. eexists. split; [cbn [skip]; reflexivity|]. intros m s E. cbv beta. cbn [alone]. unfold gravityDyn.
    destruct (joints_in (sv_chain s) q) as [qr|] eqn:J; unfold joints_in in J; rewrite E in J; rewrite (proj2 (Nat.leb_le _ _) L) in J; [|discriminate].
    injection J as <-. rewrite dyn_finish; try assumption; try (rewrite ?map_length, ?firstn_length, ?repeat_length; lia).
    rewrite repeat_length. destruct (Nat.eqb_spec m (length (sv_chain s))) as [->|_]; [|reflexivity]. rewrite E. reflexivity.
  - left. split; [reflexivity|]. intros s E. cbn. unfold gravityDyn, joints_in. rewrite E. rewrite (proj2 (Nat.leb_gt _ _) L). reflexivity.
Qed.

(** the one about forces, also *)
Definition dyn_tail n (m : nat) (qr qd qdd : list R) (w : wrench) : prog :=
  skip n (match m with
          | O => Undef
          | Datatypes.S m' => ReadJoints (fun _ => Locked (fun c => finish same (c_dyn k c qr qd qdd (repeat wrench_zero m' ++ [w]))))
          end).
Lemma dyn_shape n q qdot qdotdot f fr :
  (skip n (code ik k (InvDyn q qdot qdotdot f fr)) = Undef /\ forall s, nr_of_joints (sv_chain s) = n -> alone ik k s (InvDyn q qdot qdotdot f fr) = TUndef) \/
  exists qr qd qdd F, skip n (code ik k (InvDyn q qdot qdotdot f fr)) = ReadSegments F /\
    (forall m, skip n (F m) = match fr with
                              | OTHER_FRAME => Done None
                              | TCP_FRAME => dyn_tail n m qr qd qdd (vectorToWrench f)
                              | BASE_FRAME => Bare (fun c => match m with
                                  | O => Undef
                                  | Datatypes.S m' => ReadJoints (fun _ => Locked (fun c' => finish same (c_dyn k c' qr qd qdd (repeat wrench_zero m' ++ [wrot (mT (fM (jnt_to_cart c qr))) (vectorToWrench f)]))))
                                  end)
                              end) /\
    length qr = n /\ length qd = n /\ length qdd = n /\
    forall s, nr_of_joints (sv_chain s) = n -> alone ik k s (InvDyn q qdot qdotdot f fr) =
      match fr with
      | OTHER_FRAME => TFalse
      | _ => match length (sv_chain s) with
             | O => TUndef
             | Datatypes.S m => match c_dyn k (sv_chain s) qr qd qdd (repeat wrench_zero m ++
                 [match fr with BASE_FRAME => wrot (mT (fM (jnt_to_cart (sv_chain s) qr))) (vectorToWrench f) | _ => vectorToWrench f end]) with
                                None => TFalse | Some t => TTrue t end
             end
      end.
Proof.
  cbn [code]. unfold p_invDyn. rewrite skip_load. destruct (Nat.leb_spec n (length q)) as [L1|L1].
  2:{ left. split; [reflexivity|]. intros s E. cbn. unfold invDyn, joints_in. rewrite E. rewrite (proj2 (Nat.leb_gt _ _) L1). reflexivity. }
  rewrite skip_load. destruct (Nat.leb_spec n (length qdot)) as [L2|L2].
  2:{ left. split; [reflexivity|]. intros s E. cbn. unfold invDyn, joints_in. rewrite E. rewrite (proj2 (Nat.leb_gt _ _) L2). destruct (n <=? length q)%nat; reflexivity. }
  rewrite skip_load. destruct (Nat.leb_spec n (length qdotdot)) as [L3|L3].
  2:{ left. split; [reflexivity|]. intros s E. cbn. unfold invDyn, joints_in. rewrite E. rewrite (proj2 (Nat.leb_gt _ _) L3).
      destruct (n <=? length q)%nat; [destruct (n <=? length qdot)%nat|]; reflexivity. }
  right. exists (map degToRad (firstn n q)), (map degToRad (firstn n qdot)), (map degToRad (firstn n qdotdot)). eexists.
  split; [cbn [skip]; reflexivity|]. split; [intros m; destruct fr; reflexivity|].
  assert (length (map degToRad (firstn n q)) = n) as Lq by (rewrite map_length, firstn_length; lia).
  split; [exact Lq|]. split; [rewrite map_length, firstn_length; lia|]. split; [rewrite map_length, firstn_length; lia|].
  intros s E. cbn [alone]. unfold invDyn, joints_in. rewrite E.
  rewrite (proj2 (Nat.leb_le _ _) L1), (proj2 (Nat.leb_le _ _) L2), (proj2 (Nat.leb_le _ _) L3).
  destruct fr; [|reflexivity|reflexivity]. rewrite jnt_some by congruence. reflexivity.
Qed.
Lemma tail_answer n m qr qd qdd w c r : nr_of_joints c = n -> length qr = n -> length qd = n -> length qdd = n ->
  forall K, dyn_tail n m qr qd qdd w = Locked K -> answer_of (skip n (K c)) = Some r ->
  r = match c_dyn k c qr qd qdd (repeat wrench_zero (m - 1) ++ [w]) with None => TFalse | Some t => TTrue t end /\ (r <> TFalse -> m = length c).
Proof.
  intros E L1 L2 L3 K EK A. unfold dyn_tail in EK. destruct m as [|m]; [discriminate|]. cbn in EK. injection EK as <-.
  rewrite dyn_finish in A by assumption. injection A as <-. rewrite app_length, repeat_length. cbn [length].
  replace (Datatypes.S m - 1) with m by lia. replace (m + 1) with (Datatypes.S m) by lia.
  destruct (Nat.eqb_spec (Datatypes.S m) (length c)) as [Em|Em].
  - split; [reflexivity|]. intros _. exact Em.
  - split; [|congruence]. destruct (c_dyn k c qr qd qdd _) as [t|] eqn:D; [|reflexivity].
    destruct Z as (_ & _ & Z3). destruct (Z3 _ _ _ _ _ _ D) as (_ & B); try congruence. rewrite app_length, repeat_length in B. cbn in B. lia.
Qed.
End Solvers.
