(** What the torques of KDL's solver do: d'Alembert's principle, and equilibrium at rest. *)
From Coq Require Import Reals Lra Lia List Bool Arith.
From Verif Require Import Kdl KdlFacts KdlRot KinRep KdlSolver Ft Config Tree TreeSpec Dyn AsibotSpec DynSpec DynFacts DynFacts2 DynFacts3.
Import ListNotations.
Open Scope R_scope.
Local Notation length := List.length.

Definition inertia_of (b : body) : rb_inertia := mk_inertia (b_mass b) (b_cog b) (b_inertia b).
Definition times (i w : vec) : vec := V (vx i * vx w) (vy i * vy w) (vz i * vz w).
Lemma vr_times : forall i f t a, vec_rate f t a -> vec_rate (fun s => times i (f s)) t (times i a).
Proof. intros i f t a (A1 & A2 & A3). repeat split; cbn [times vx vy vz]; dlr. Qed.

Lemma body_resists : forall g b f v t a d, (forall s, rigid (f s)) -> (forall s, flies f s (v s)) -> twist_rate v t a ->
  resists g b f t (trot (fM (f t)) d) (tdot d (push (inertia_of b) (heavy g (fM (f t)) a) (v t))).
Proof.
  intros g b f v t a d R Fl [V1 V2].
  pose proof (proj2 (proj1 (velocity_split _ _ _) (Fl t))) as W. cbn [trot t_rot] in W.
  exists (fun s => trot (fM (f s)) (v s)).
  exists (mv (fM (f t)) (vadd (vadd (t_vel a) (cross (t_rot a) (b_cog b))) (cross (t_rot (v t)) (vadd (t_vel (v t)) (cross (t_rot (v t)) (b_cog b)))))).
  exists (mv (fM (f t)) (vadd (times (b_inertia b) (t_rot a)) (cross (t_rot (v t)) (times (b_inertia b) (t_rot (v t)))))).
  split; [exact Fl|]. split; [|split].
  - eapply vr_ext with (fun s => mv (fM (f s)) (vadd (t_vel (v s)) (cross (t_rot (v s)) (b_cog b)))).
    { intro s. cbn [trot t_vel t_rot]. rewrite mv_add, cross_rot by apply R. reflexivity. }
    eapply vr_eq; [apply vr_spin; [exact W | apply vr_add; [exact V1 | apply vr_cross; [exact V2 | apply vr_const]]]|].
    cbv beta. rewrite <- cross_rot by apply R. rewrite <- mv_add. f_equal.
    replace (cross (t_rot (v t)) vzero) with vzero by (unfold vzero; vring). rewrite vadd_zero_r. apply vadd_comm.
  - eapply vr_ext with (fun s => mv (fM (f s)) (times (b_inertia b) (t_rot (v s)))).
    { intro s. cbn [trot t_vel t_rot]. cbv zeta. rewrite !mv_mT_l by apply R. reflexivity. }
    eapply vr_eq; [apply vr_spin; [exact W | apply vr_times; exact V2]|].
    cbv beta. rewrite <- cross_rot by apply R. rewrite <- mv_add. f_equal. apply vadd_comm.
  - cbn [trot t_vel t_rot]. rewrite <- cross_rot by apply R. rewrite <- mv_add.
    replace g with (mv (fM (f t)) (mv (mT (fM (f t))) g)) at 2 by (apply mv_mT_r, R).
    rewrite <- mv_sub. rewrite !dot_rot by apply R. unfold heavy. set (y := mv (mT (fM (f t))) g). clearbody y.
    destruct b as [m c i]. cbn [b_mass b_cog b_inertia inertia_of]. unfold push, inertia_of, mk_inertia, tdot, wadd, rb_mul, twcross, tadd. cbn [b_mass b_cog b_inertia rb_m rb_h rb_i w_force w_torque t_vel t_rot].
    set (dv := t_vel d). set (dr := t_rot d). set (av := t_vel a). set (ar := t_rot a). set (u := t_vel (v t)). set (w := t_rot (v t)).
    clearbody dv dr av ar u w. clear. unfold times. vring.
Qed.

(** ** Lists *)
Lemma sum_add : forall A (f h : A -> R) l, sum (map (fun x => f x + h x) l) = sum (map f l) + sum (map h l).
Proof. intros A f h l. unfold sum. induction l as [|x l IH]; cbn [map fold_right]; [ring | rewrite IH; ring]. Qed.
Lemma sum_ext : forall A (f h : A -> R) l, (forall x, In x l -> f x = h x) -> sum (map f l) = sum (map h l).
Proof. intros A f h l E. f_equal. apply map_ext_in. exact E. Qed.
Lemma sum_shift : forall f n, sum (map f (seq 0 (Datatypes.S n))) = f 0%nat + sum (map (fun i => f (Datatypes.S i)) (seq 0 n)).
Proof. intros. cbn [seq map sum fold_right]. rewrite <- seq_shift, map_map. reflexivity. Qed.
Lemma works_sum : forall bs ds vs as_, length ds = length bs -> length vs = length bs -> length as_ = length bs -> forall df,
  works bs ds vs as_ = sum (map (fun i => let b := nth i bs df in let d := nth i ds twist_zero in
    tdot d (push (snd (fst b)) (nth i as_ twist_zero) (nth i vs twist_zero)) - tdot d (snd b)) (seq 0 (length bs))).
Proof.
  induction bs as [|[[s i] fe] bs IH]; intros ds vs as_ L1 L2 L3 df; [reflexivity|].
  destruct ds as [|d ds], vs as [|v vs], as_ as [|a as_]; try discriminate. cbn [length] in *.
  rewrite sum_shift. cbn [works nth fst snd]. cbv zeta. f_equal. apply IH; lia.
Qed.
Lemma track_len : forall c b q v, length q = nr_of_joints c -> length v = nr_of_joints c -> length (track b c q v) = length c.
Proof.
  induction c as [|s c IH]; intros b q v L1 L2; [reflexivity|]. rewrite nr_cons in *. cbn [track]. destruct (is_fixed (s_joint s)).
  - cbn [length]. f_equal. apply IH; auto.
  - destruct q, v; try discriminate. cbn [length] in *. f_equal. apply IH; lia.
Qed.
Lemma accel_len : forall c b a q v w, length q = nr_of_joints c -> length v = nr_of_joints c -> length w = nr_of_joints c -> length (accel b a c q v w) = length c.
Proof.
  induction c as [|s c IH]; intros b a q v w L1 L2 L3; [reflexivity|]. rewrite nr_cons in *. cbn [accel]. cbv zeta. destruct (is_fixed (s_joint s)).
  - cbn [length]. f_equal. apply IH; auto.
  - destruct q, v, w; try discriminate. cbn [length] in *. f_equal. apply IH; lia.
Qed.
Lemma padded : forall A (l : list A) z n i, (i < n)%nat -> nth i (firstn n l ++ repeat z (n - length l)) z = nth i l z.
Proof.
  intros A l z. induction l as [|x l IH]; intros n i I.
  - rewrite firstn_nil. cbn [app length]. rewrite Nat.sub_0_r. replace (nth i [] z) with z by (destruct i; reflexivity). clear I. revert i. induction n; intros [|i]; cbn; auto.
  - destruct n as [|n]; [lia|]. destruct i as [|i]; [reflexivity|]. cbn [firstn length app nth]. apply IH. lia.
Qed.
Lemma padded_len : forall A (l : list A) z n, length (firstn n l ++ repeat z (n - length l)) = n.
Proof. intros. rewrite app_length, firstn_length, repeat_length. lia. Qed.
Lemma combine_map_fst : forall A B (l : list A) (m : list B), length l = length m -> map fst (combine l m) = l.
Proof. induction l as [|x l IH]; intros [|y m] L; try discriminate; cbn; f_equal; auto. Qed.
Lemma loaded_chain : forall is c fs, length fs = length c -> map (fun b => fst (fst b)) (loaded is c fs) = c.
Proof.
  intros is c fs L. unfold loaded. rewrite <- (map_map fst fst). rewrite combine_map_fst, combine_map_fst; auto.
  - symmetry. apply padded_len.
  - rewrite combine_length, padded_len. lia.
Qed.
Lemma loaded_len : forall is c fs, length fs = length c -> length (loaded is c fs) = length c.
Proof. intros. unfold loaded. rewrite !combine_length, padded_len. lia. Qed.
Definition no_seg : segment := S (J JNone 1 0 vzero vzero) fid.
Lemma loaded_nth : forall is c fs i, length fs = length c -> (i < length c)%nat ->
  nth i (loaded is c fs) (no_seg, inertia_zero, wrench_zero) = (nth i c no_seg, nth i is inertia_zero, nth i fs wrench_zero).
Proof.
  intros is c fs i L I. unfold loaded. rewrite combine_nth by (rewrite combine_length, padded_len; lia).
  rewrite combine_nth by (rewrite padded_len; reflexivity). rewrite padded by exact I. reflexivity.
Qed.
Definition line (q u : list R) : list (R -> R) := map (fun p t => fst p + t * snd p) (combine q u).
Lemma moving_line : forall q u t, moving q u t = at_time (line q u) t.
Proof. intros. unfold moving, at_time, line. rewrite map_map. reflexivity. Qed.
Lemma line_rate : forall q u t, length u = length q -> Forall2 (fun j r => derivable_pt_lim j t r) (line q u) u.
Proof.
  induction q as [|x q IH]; intros [|y u] t L; try discriminate; constructor; [|apply IH; cbn in L; lia].
  eapply dl_eq; [dl|]. cbv beta. cbn [fst snd]. ring.
Qed.
Lemma line_len : forall q u, length u = length q -> length (line q u) = length q.
Proof. intros. unfold line. rewrite map_length, combine_length. lia. Qed.
Lemma line_start : forall q u, length u = length q -> at_time (line q u) 0 = q.
Proof. induction q as [|x q IH]; intros [|y u] L; try discriminate; [reflexivity|]. cbn. f_equal; [ring | apply IH; cbn in L; lia]. Qed.
Lemma flies_base : forall t, flies (fun _ => fid) t twist_zero.
Proof. intro. unfold flies. eapply velocity_eq; [apply velocity_const|]. unfold trot, twist_zero. cbn [t_vel t_rot]. rewrite !mv_zero. reflexivity. Qed.
Lemma F2_len : forall A B (P : A -> B -> Prop) l m, Forall2 P l m -> length l = length m.
Proof. induction 1; cbn; congruence. Qed.
Lemma F2_at : forall js vs, Forall2 (fun j v => forall s, derivable_pt_lim j s (v s)) js vs -> forall t, Forall2 (fun j v => derivable_pt_lim j t v) js (at_time vs t).
Proof. induction 1; intro; constructor; auto. apply IHForall2. Qed.
Lemma place_rigid : forall c q i, Forall sol c -> rigid (place c q i).
Proof.
  intros c q i H. unfold place. destruct (Nat.lt_ge_cases i (length (places fid c q))) as [I|I].
  - pose proof (places_rigid c fid q H rigid_id) as P. rewrite Forall_forall in P. apply P, nth_In, I.
  - rewrite nth_overflow by exact I. apply rigid_id.
Qed.

(** ** d'Alembert *)
Theorem rne_dalembert : forall g bs c js vs w t fs ts u, solid c ->
  Forall2 (fun j v => forall s, derivable_pt_lim j s (v s)) js vs -> Forall2 (fun v r => derivable_pt_lim v t r) vs w ->
  rne g (map inertia_of bs) c (at_time js t) (at_time vs t) w fs = Some ts -> length u = nr_of_joints c ->
  length ts = nr_of_joints c /\
  exists ds xs,
    (forall i, (i < length c)%nat -> velocity_of (fun s => place c (moving (at_time js t) u s) i) 0 (ds i) /\
      resists g (nth i bs no_body) (fun s => place c (at_time js s) i) t (ds i) (xs i)) /\
    power ts u + sum (map (fun i => wrench_power (wrot (fM (place c (at_time js t) i)) (nth i fs wrench_zero)) (ds i)) (seq 0 (length c)))
      = sum (map xs (seq 0 (length c))).
Proof.
  intros g bs c js vs w t fs ts u H D DD E L. unfold rne in E. destruct (Nat.eqb (length fs) (length c)) eqn:Ef; [|discriminate].
  apply Nat.eqb_eq in Ef. destruct (rne_pass _ _ _ _ _ _) as [[f1 ts1]|] eqn:E1; [|discriminate]. cbn in E. injection E as ->.
  set (is := map inertia_of bs) in *.
  assert (Hb : Forall (fun b => sol (fst (fst b))) (loaded is c fs)).
  { apply Forall_forall. intros b Hb. unfold solid in H. rewrite Forall_forall in H. apply H.
    rewrite <- (loaded_chain is c fs Ef) at 1. apply in_map_iff. exists b. auto. }
  assert (Hc : Forall sol c) by exact H.
  destruct (virtual_work _ _ _ twist_zero _ _ _ u _ _ Hb E1) as (K1 & K2 & K3 & K4 & K5); [rewrite loaded_chain by exact Ef; exact L|].
  rewrite loaded_chain in * by exact Ef. split; [exact K4|].
  set (q := at_time js t) in *. set (qd := at_time vs t) in *.
  exists (fun i => trot (fM (place c q i)) (nth i (track twist_zero c q u) twist_zero)).
  exists (fun i => tdot (nth i (track twist_zero c q u) twist_zero) (push (nth i is inertia_zero) (nth i (accel twist_zero (Tw (vneg g) vzero) c q qd w) twist_zero) (nth i (track twist_zero c q qd) twist_zero))).
  assert (Lj : length js = nr_of_joints c) by (unfold q, at_time in K1; rewrite map_length in K1; exact K1).
  split.
  - intros i I. split.
    + pose proof (places_fly c (fun _ => fid) twist_zero (line q u) u 0 i Hc rigid_id (flies_base 0)) as P.
      rewrite line_len, line_start in P by congruence. specialize (P K1 (line_rate q u 0 ltac:(congruence)) I).
      unfold flies in P. cbv beta in P. rewrite line_start in P by congruence.
      eapply velocity_ext; [|exact P]. intro s. cbv beta. unfold place. rewrite moving_line. reflexivity.
    + replace (nth i is inertia_zero) with (inertia_of (nth i bs no_body)) by (unfold is; rewrite <- (map_nth inertia_of); reflexivity).
      assert (A : nth i (accel twist_zero (Tw (vneg g) vzero) c q qd w) twist_zero = heavy g (fM (place c q i)) (nth i (accel twist_zero twist_zero c q qd w) twist_zero)).
      { unfold place. rewrite <- accel_heavy by assumption. f_equal. f_equal. unfold heavy, tadd, twist_zero, fid. cbn [t_vel t_rot fM]. rewrite mT_id, mv_id, !vadd_zero_l. reflexivity. }
      rewrite A. apply (body_resists g (nth i bs no_body) (fun s => place c (at_time js s) i) (fun s => nth i (track twist_zero c (at_time js s) (at_time vs s)) twist_zero)).
      * intro s. apply place_rigid, Hc.
      * intro s. apply (places_fly c (fun _ => fid) twist_zero js (at_time vs s) s i Hc rigid_id (flies_base s) Lj); [|exact I]. apply F2_at, D.
      * apply (track_rate c (fun _ => twist_zero) twist_zero js vs w t i Hc); auto.
        -- split; apply vr_const.
        -- clear - D. induction D; constructor; auto.
  - rewrite (works_sum _ _ _ _) with (df := (no_seg, inertia_zero, wrench_zero)) in K5;
      rewrite ?track_len, ?accel_len, ?loaded_len by (assumption || congruence); auto.
    rewrite loaded_len in K5 by exact Ef.
    assert (Z : tdot twist_zero f1 = 0) by (unfold tdot, twist_zero; cbn [t_vel t_rot]; rewrite !dot_zero_l; ring).
    rewrite Z, Rplus_0_r in K5. rewrite K5. rewrite <- sum_add. apply sum_ext. intros i I. apply in_seq in I. cbv beta zeta. rewrite loaded_nth by (assumption || lia). cbn [fst snd].
    assert (W : forall d y, wrench_power (wrot (fM (place c q i)) y) (trot (fM (place c q i)) d) = tdot d y).
    { intros d y. unfold wrench_power, wrot, trot, tdot. cbn [w_force w_torque t_vel t_rot]. rewrite !dot_rot by (apply place_rigid, Hc). rewrite (dot_comm (w_force y)), (dot_comm (w_torque y)). reflexivity. }
    rewrite W. ring.
Qed.
