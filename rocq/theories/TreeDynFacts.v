(** The dynamics of a tree. *)
From Coq Require Import Reals Lra Lia List Bool Arith String.
From Verif Require Import Kdl KdlFacts KdlRot KinRep Ft Config Tree TreeFacts TreeSpec Dyn AsibotSpec DynSpec DynFacts DynFacts2 DynFacts3 DynFacts4 DynFacts5 DynFacts6 TreeDyn.
Import ListNotations.
Open Scope R_scope.
Local Notation length := List.length.

(** ** Trees as addSegment makes them *)
Inductive sound : tree -> Prop :=
| sound_nil : sound []
| sound_cons n t : sound t -> has_segment t (nd_parent n) = true -> has_segment t (nd_name n) = false ->
    (is_fixed (s_joint (nd_seg n)) = false -> nd_q n = tree_joints t) -> sol (nd_seg n) -> sound (n :: t).
Lemma names_nodup t : sound t -> NoDup (map nd_name t).
Proof.
  induction 1 as [|n t H IH P N Q O]; cbn; constructor; auto. intro I. unfold has_segment in N. apply orb_false_elim in N. destruct N as [_ N].
  apply in_map_iff in I. destruct I as (m & E & I). assert (X : existsb (fun n0 => String.eqb (nd_name n0) (nd_name n)) t = true); [|congruence].
  apply existsb_exists. exists m. split; [exact I|]. apply String.eqb_eq. exact E.
Qed.
Lemma has_names t n : has_segment t n = true <-> n = "root"%string \/ In n (map nd_name t).
Proof.
  unfold has_segment. rewrite orb_true_iff, String.eqb_eq, existsb_exists, in_map_iff. split; (intros [H|(m & A & B)]; [now left|right; exists m]).
  - apply String.eqb_eq in B. auto.
  - split; [exact B|]. apply String.eqb_eq. exact A.
Qed.
Lemma not_root t n : has_segment t n = false -> n <> "root"%string.
Proof. intros H ->. discriminate. Qed.
Lemma name_other t n m : has_segment t (nd_name n) = false -> In m t -> String.eqb (nd_name n) (nd_name m) = false.
Proof.
  intros H I. apply String.eqb_neq. intro E. rewrite E in H. assert (has_segment t (nd_name m) = true); [|congruence]. apply has_names. right. apply in_map, I.
Qed.

(** ** Poses, velocities and accelerations *)
Fixpoint tpose (t : tree) (q : list R) (name : string) : frame :=
  match t with
  | [] => fid
  | n :: t' => if String.eqb (nd_name n) name then fmul (tpose t' q (nd_parent n)) (segment_pose (nd_seg n) (joint_value n q)) else tpose t' q name
  end.
Fixpoint ttrack (t : tree) (q v : list R) (name : string) : twist :=
  match t with
  | [] => twist_zero
  | n :: t' => if String.eqb (nd_name n) name
               then tadd (ftwist_inv (segment_pose (nd_seg n) (joint_value n q)) (ttrack t' q v (nd_parent n))) (tscale (joint_value n v) (screw (nd_seg n)))
               else ttrack t' q v name
  end.
Fixpoint taccel (a : twist) (t : tree) (q v w : list R) (name : string) : twist :=
  match t with
  | [] => a
  | n :: t' => if String.eqb (nd_name n) name
               then let vj := tscale (joint_value n v) (screw (nd_seg n)) in
                    let X := segment_pose (nd_seg n) (joint_value n q) in
                    tadd (tadd (ftwist_inv X (taccel a t' q v w (nd_parent n))) (tscale (joint_value n w) (screw (nd_seg n))))
                         (tcross (tadd (ftwist_inv X (ttrack t' q v (nd_parent n))) vj) vj)
               else taccel a t' q v w name
  end.
Lemma tpose_fk t q : forall name f, tree_fk t q name = Some f -> tpose t q name = f.
Proof.
  induction t as [|n t IH]; intros name f H; cbn [tree_fk tpose] in *.
  - destruct (String.eqb name "root"); [injection H as <-; reflexivity|discriminate].
  - destruct (String.eqb (nd_name n) name); [|auto]. destruct (tree_fk t q (nd_parent n)) as [h|] eqn:E; [|discriminate]. injection H as <-.
    rewrite (IH _ _ E). f_equal. unfold joint_value. destruct (is_fixed _) eqn:Fx; [apply fixed_pose, Fx|reflexivity].
Qed.
Lemma tpose_rigid t q : sound t -> forall name, rigid (tpose t q name).
Proof.
  induction 1 as [|n t H IH P N Q O]; intro name; cbn [tpose]; [apply rigid_id|]. destruct (String.eqb _ _); [|apply IH].
  apply rigid_mul; [apply IH|apply segment_rigid, O].
Qed.
Lemma nth_rate js v t : Forall2 (fun j r => derivable_pt_lim j t r) js v -> forall i, derivable_pt_lim (fun s => nth i (at_time js s) 0) t (nth i v 0).
Proof.
  induction 1 as [|j r js v D F IH]; intros [|i]; cbn [at_time map nth]; try apply dl_const; [exact D|apply IH].
Qed.
Lemma value_rate js v t n : Forall2 (fun j r => derivable_pt_lim j t r) js v -> derivable_pt_lim (fun s => joint_value n (at_time js s)) t (joint_value n v).
Proof. intro H. unfold joint_value. destruct (is_fixed _); [apply dl_const|apply nth_rate, H]. Qed.
Lemma tpose_flies t js v x : sound t -> Forall2 (fun j r => derivable_pt_lim j x r) js v -> forall name,
  flies (fun s => tpose t (at_time js s) name) x (ttrack t (at_time js x) v name).
Proof.
  intros H D. induction H as [|n t H IH P N Q O]; intro name; cbn [tpose ttrack]; [apply flies_base|]. destruct (String.eqb _ _); [|apply IH].
  apply (flies_next (fun s => tpose t (at_time js s) (nd_parent n)) x _ (nd_seg n) (fun s => joint_value n (at_time js s)) (joint_value n v)); auto.
  - apply tpose_rigid, H.
  - apply value_rate, D.
Qed.
Lemma F2_now js vs t : Forall2 (fun j v => derivable_pt_lim j t (v t)) js vs -> Forall2 (fun j r => derivable_pt_lim j t r) js (at_time vs t).
Proof. induction 1; constructor; auto. Qed.
Lemma ttrack_rate t js vs w x : sound t -> Forall2 (fun j v => derivable_pt_lim j x (v x)) js vs -> Forall2 (fun v r => derivable_pt_lim v x r) vs w -> forall name,
  twist_rate (fun s => ttrack t (at_time js s) (at_time vs s) name) x (taccel twist_zero t (at_time js x) (at_time vs x) w name).
Proof.
  intros H D DD. induction H as [|n t H IH P N Q O]; intro name; cbn [ttrack taccel]; [split; apply vr_const|]. destruct (String.eqb _ _); [|apply IH]. cbv zeta.
  apply (tr_next (nd_seg n) (fun s => joint_value n (at_time js s)) (fun s => joint_value n (at_time vs s)) x (fun s => ttrack t (at_time js s) (at_time vs s) (nd_parent n))); auto.
  - apply value_rate, F2_now, D.
  - apply value_rate, DD.
Qed.
Lemma taccel_heavy t g q v w : forall name, taccel (heavy g (fM fid) twist_zero) t q v w name = heavy g (fM (tpose t q name)) (taccel twist_zero t q v w name).
Proof.
  induction t as [|n t IH]; intro name; cbn [taccel tpose]; [reflexivity|]. destruct (String.eqb _ _); [|apply IH]. cbv zeta. rewrite heavy_next, IH. reflexivity.
Qed.
Lemma heavy_base g : heavy g (fM fid) twist_zero = Tw (vneg g) vzero.
Proof. unfold heavy, tadd, twist_zero, fid. cbn [t_vel t_rot fM]. rewrite mT_id, mv_id, !vadd_zero_l. reflexivity. Qed.
Lemma motion_split g t q v w : sound t -> forall name, tree_motion g t q v w name = (ttrack t q v name, taccel (Tw (vneg g) vzero) t q v w name).
Proof.
  induction 1 as [|n t H IH P N Q O]; intro name; cbn [tree_motion ttrack taccel]; [reflexivity|]. destruct (String.eqb _ _); [|apply IH]. cbv zeta.
  rewrite IH. cbn [fst snd]. rewrite !screw_twist by exact O.
  assert (S1 : tscale 1 (screw (nd_seg n)) = screw (nd_seg n)) by (unfold tscale; rewrite !vscale_1; destruct (screw (nd_seg n)); reflexivity).
  rewrite S1. reflexivity.
Qed.

(** ** Virtual work *)
Lemma pick (h : string -> R) p : forall l, NoDup (map nd_name l) ->
  (In p (map nd_name l) -> sum (map (fun n => if String.eqb (nd_name n) p then h (nd_name n) else 0) l) = h p) /\
  (~ In p (map nd_name l) -> sum (map (fun n => if String.eqb (nd_name n) p then h (nd_name n) else 0) l) = 0).
Proof.
  induction l as [|n l IH]; intro N; cbn [map sum fold_right In]; [split; tauto|]. cbn [map] in N. inversion N as [|? ? N1 N2]; subst.
  destruct (IH N2) as [A B]. unfold sum in *. destruct (String.eqb (nd_name n) p) eqn:E.
  - apply String.eqb_eq in E. subst p. split; [intros _; rewrite B by exact N1; ring | tauto].
  - apply String.eqb_neq in E. split; [intros [X|X]; [contradiction|]; rewrite A by exact X; ring | intro X; rewrite B by tauto; ring].
Qed.
Lemma track_root t q v : sound t -> ttrack t q v "root" = twist_zero.
Proof.
  induction 1 as [|n t H IH P N Q O]; cbn [ttrack]; [reflexivity|]. pose proof (not_root _ _ N) as E. apply String.eqb_neq in E. rewrite E. exact IH.
Qed.
Lemma tdot_zero w : tdot twist_zero w = 0.
Proof. unfold tdot, twist_zero. cbn [t_vel t_rot]. rewrite !dot_zero_l. ring. Qed.
Lemma motion_tail g n t q v w : sound (n :: t) -> forall m, In m t -> tree_motion g (n :: t) q v w (nd_name m) = tree_motion g t q v w (nd_name m).
Proof. intros H m I. inversion H; subst. cbn [tree_motion]. rewrite (name_other t n m) by assumption. reflexivity. Qed.
Lemma track_tail n t q v : sound (n :: t) -> forall m, In m t -> ttrack (n :: t) q v (nd_name m) = ttrack t q v (nd_name m).
Proof. intros H m I. inversion H; subst. cbn [ttrack]. rewrite (name_other t n m) by assumption. reflexivity. Qed.

Definition own (g : vec) (is : string -> rb_inertia) (fe : string -> wrench) (t : tree) (q qd qdd : list R) (m : string) : wrench :=
  wsub (push (is m) (snd (tree_motion g t q qd qdd m)) (fst (tree_motion g t q qd qdd m))) (fe m).
Lemma efforts_work g is fe q qd qdd u : forall t, sound t -> forall acc,
  sum (map (fun e => snd e * nth (fst e) u 0) (tree_efforts g is fe t q qd qdd acc)) =
  sum (map (fun n => tdot (ttrack t q u (nd_name n)) (wadd (own g is fe t q qd qdd (nd_name n)) (acc (nd_name n)))) t).
Proof.
  induction t as [|n t IH]; intros H acc; [reflexivity|]. pose proof H as HH. inversion H as [|? ? H1 P N Q O]; subst.
  cbn [tree_efforts]. cbv zeta. set (X := segment_pose (nd_seg n) (joint_value n q)).
  change (wadd (wsub (wadd (rb_mul (is (nd_name n)) (snd (tree_motion g (n :: t) q qd qdd (nd_name n)))) (twcross (fst (tree_motion g (n :: t) q qd qdd (nd_name n))) (rb_mul (is (nd_name n)) (fst (tree_motion g (n :: t) q qd qdd (nd_name n)))))) (fe (nd_name n))) (acc (nd_name n)))
    with (wadd (own g is fe (n :: t) q qd qdd (nd_name n)) (acc (nd_name n))).
  set (f := wadd (own g is fe (n :: t) q qd qdd (nd_name n)) (acc (nd_name n))).
  set (acc' := fun m => if String.eqb m (nd_parent n) then wadd (acc m) (fwrench X f) else acc m).
  specialize (IH H1 acc').
  assert (RX : rigid X) by apply segment_rigid, O.
  assert (R : sum (map (fun m => tdot (ttrack t q u (nd_name m)) (wadd (own g is fe t q qd qdd (nd_name m)) (acc' (nd_name m)))) t) =
    sum (map (fun m => tdot (ttrack (n :: t) q u (nd_name m)) (wadd (own g is fe (n :: t) q qd qdd (nd_name m)) (acc (nd_name m)))) t) + tdot (ttrack t q u (nd_parent n)) (fwrench X f)).
  { destruct (pick (fun m => tdot (ttrack t q u m) (fwrench X f)) (nd_parent n) t (names_nodup _ H1)) as [A B].
    assert (C : tdot (ttrack t q u (nd_parent n)) (fwrench X f) = sum (map (fun m => if String.eqb (nd_name m) (nd_parent n) then tdot (ttrack t q u (nd_name m)) (fwrench X f) else 0) t)).
    { destruct (in_dec string_dec (nd_parent n) (map nd_name t)) as [I|I]; [rewrite A by exact I; reflexivity|]. rewrite B by exact I.
      apply has_names in P. destruct P as [E|E]; [|contradiction]. rewrite E, track_root by exact H1. apply tdot_zero. }
    rewrite C, <- sum_add. apply sum_ext. intros m I. rewrite track_tail by assumption. unfold own at 2. rewrite motion_tail by assumption. fold (own g is fe t q qd qdd (nd_name m)).
    unfold acc'. destruct (String.eqb (nd_name m) (nd_parent n)); rewrite !tdot_add_r; ring. }
  assert (Hd : tdot (ttrack (n :: t) q u (nd_name n)) f = joint_value n u * tdot (screw (nd_seg n)) f + tdot (ttrack t q u (nd_parent n)) (fwrench X f)).
  { cbn [ttrack]. rewrite String.eqb_refl. fold X. rewrite tdot_add_l, tdot_scale_l, power_frames by exact RX. ring. }
  cbn [map]. unfold sum at 2. cbn [fold_right]. fold f. rewrite Hd.
  change (fold_right Rplus 0 ?l) with (sum l). assert (JU : joint_value n u = if is_fixed (s_joint (nd_seg n)) then 0 else nth (nd_q n) u 0) by reflexivity. rewrite JU.
  destruct (is_fixed (s_joint (nd_seg n))) eqn:Fx.
  - rewrite IH, R. ring.
  - cbn [map fst snd]. unfold sum at 1. cbn [fold_right]. change (fold_right Rplus 0 ?l) with (sum l). rewrite IH, R.
    unfold X at 1. rewrite screw_twist by exact O. fold X.
    assert (S1 : tscale 1 (screw (nd_seg n)) = screw (nd_seg n)) by (unfold tscale; rewrite !vscale_1; destruct (screw (nd_seg n)); reflexivity).
    rewrite S1. ring.
Qed.

(** ** The order of the joints *)
Lemma efforts_numbers g is fe q qd qdd : forall t, sound t -> forall acc, map fst (tree_efforts g is fe t q qd qdd acc) = rev (seq 0 (tree_joints t)).
Proof.
  induction 1 as [|n t H IH P N Q O]; intro acc; [reflexivity|]. cbn [tree_efforts]. cbv zeta. unfold tree_joints. cbn [filter].
  destruct (is_fixed (s_joint (nd_seg n))) eqn:Fx; cbn [negb]; [apply IH|]. cbn [length]. fold (tree_joints t). rewrite seq_S, rev_app_distr. cbn [rev app map fst Nat.add].
  rewrite IH, (Q eq_refl). reflexivity.
Qed.
Lemma power_index : forall ts u, length u = length ts -> power ts u = sum (map (fun j => nth j ts 0 * nth j u 0) (seq 0 (length ts))).
Proof.
  induction ts as [|x ts IH]; intros [|y u] L; try discriminate; [reflexivity|]. rewrite power_cons. cbn [length]. rewrite sum_shift. cbn [nth]. f_equal. apply IH. cbn in L. lia.
Qed.
Lemma sum_app a b : sum (a ++ b) = sum a + sum b.
Proof. unfold sum. induction a as [|x a IH]; cbn; [ring|rewrite IH; ring]. Qed.
Definition told_effort (es : list (nat * R)) (j : nat) : R := match find (fun e => Nat.eqb (fst e) j) es with Some e => snd e | None => 0 end.
Lemma efforts_power u : forall n es, map fst es = rev (seq 0 n) ->
  sum (map (fun j => told_effort es j * nth j u 0) (seq 0 n)) = sum (map (fun e => snd e * nth (fst e) u 0) es).
Proof.
  induction n as [|n IH]; intros es E.
  - destruct es; [reflexivity|discriminate].
  - rewrite seq_S in *. cbn [Nat.add] in *. rewrite rev_app_distr in E. cbn [rev app] in E. destruct es as [|[k x] es]; [discriminate|]. cbn [map fst] in E. injection E as -> E.
    rewrite map_app, sum_app. cbn [map]. unfold sum at 2. cbn [fold_right]. unfold sum at 2. cbn [fold_right fst snd]. change (fold_right Rplus 0 ?l) with (sum l). rewrite <- IH by exact E.
    unfold told_effort at 2. cbn [find fst snd]. rewrite Nat.eqb_refl. cbn [snd]. rewrite Rplus_0_r, Rplus_comm. f_equal. apply sum_ext. intros j I. apply in_seq in I. unfold told_effort. cbn [find fst].
    destruct (Nat.eqb_spec n j); [lia|reflexivity].
Qed.
Lemma rne_power g is t q qd qdd fe ts : sound t -> tree_rne g is t q qd qdd fe = Some ts ->
  length q = tree_joints t /\ length qd = tree_joints t /\ length qdd = tree_joints t /\ length ts = tree_joints t /\
  forall u, length u = tree_joints t ->
  power ts u + sum (map (fun n => tdot (ttrack t q u (nd_name n)) (or_default (lookup fe (nd_name n)) wrench_zero)) t) =
  sum (map (fun n => tdot (ttrack t q u (nd_name n)) (push (or_default (lookup is (nd_name n)) inertia_zero) (heavy g (fM (tpose t q (nd_name n))) (taccel twist_zero t q qd qdd (nd_name n))) (ttrack t q qd (nd_name n)))) t).
Proof.
  intros H E. unfold tree_rne in E. cbv zeta in E. destruct (_ && _)%bool eqn:B; [|discriminate]. apply andb_true_iff in B. destruct B as [B B3]. apply andb_true_iff in B. destruct B as [B1 B2].
  apply Nat.eqb_eq in B1, B2, B3. set (es := tree_efforts _ _ _ _ _ _ _ _) in E. injection E as <-. do 3 (split; [assumption|]). split; [rewrite map_length, seq_length; reflexivity|].
  intros u L. rewrite power_index by (rewrite map_length, seq_length; exact L). rewrite map_length, seq_length.
  assert (E1 : sum (map (fun j => nth j (map (told_effort es) (seq 0 (tree_joints t))) 0 * nth j u 0) (seq 0 (tree_joints t))) = sum (map (fun j => told_effort es j * nth j u 0) (seq 0 (tree_joints t)))).
  { apply sum_ext. intros j I. apply in_seq in I. f_equal. rewrite (nth_indep _ 0 (told_effort es 0%nat)) by (rewrite map_length, seq_length; lia). rewrite map_nth, seq_nth by lia. reflexivity. }
  change (map (fun j => match find (fun e => Nat.eqb (fst e) j) es with Some e => snd e | None => 0 end) (seq 0 (tree_joints t))) with (map (told_effort es) (seq 0 (tree_joints t))).
  rewrite E1, efforts_power by (unfold es; apply efforts_numbers, H). unfold es. rewrite efforts_work by exact H. rewrite <- sum_add. apply sum_ext. intros n I.
  unfold own. rewrite motion_split by exact H. cbn [fst snd]. rewrite <- heavy_base, taccel_heavy. rewrite !tdot_add_r, tdot_sub_r.
  assert (Z : tdot (ttrack t q u (nd_name n)) wrench_zero = 0) by (unfold tdot, wrench_zero; cbn [w_force w_torque]; rewrite !dot_zero_r; ring). rewrite Z. ring.
Qed.
