(** At rest: the torques of KDL's solver balance the weight of the links. *)
From Coq Require Import Reals Lra Lia List Bool Arith.
From Verif Require Import Kdl KdlFacts KdlRot KinRep KdlSolver Ft Config Tree TreeSpec Dyn AsibotSpec DynSpec DynFacts DynFacts2 DynFacts3 DynFacts4.
Import ListNotations.
Open Scope R_scope.
Local Notation length := List.length.

Lemma vr_unique : forall f t a b, vec_rate f t a -> vec_rate f t b -> a = b.
Proof.
  intros f t a b (A1 & A2 & A3) (B1 & B2 & B3). apply vec_eq; eapply uniqueness_limite; eassumption.
Qed.
Lemma spins_unique : forall m t a b, rotation_matrix (m t) -> spins m t a -> spins m t b -> a = b.
Proof.
  intros m t a b R A B.
  assert (E : forall c, cross a c = cross b c).
  { intro c. rewrite <- (mv_mT_r (m t) c R). set (d := mv (mT (m t)) c).
    pose proof (vr_spin m (fun _ => d) t a vzero A (vr_const d t)) as Ha. pose proof (vr_spin m (fun _ => d) t b vzero B (vr_const d t)) as Hb.
    pose proof (vr_unique _ _ _ _ Ha Hb) as E. cbv beta in E. rewrite mv_zero, !vadd_zero_r in E. exact E. }
  pose proof (E (V 1 0 0)) as E1. pose proof (E (V 0 1 0)) as E2. unfold cross in E1, E2. cbn [vx vy vz] in E1, E2.
  injection E1 as _ P Q. injection E2 as _ _ S. apply vec_eq; lra.
Qed.
Lemma velocity_unique : forall f t a b, rigid (f t) -> velocity_of f t a -> velocity_of f t b -> a = b.
Proof.
  intros f t [av ar] [bv br] R A B. apply velocity_split in A. apply velocity_split in B. cbn [t_vel t_rot] in *. destruct A as [A1 A2], B as [B1 B2].
  apply (f_equal2 Tw); [eapply vr_unique; eassumption | eapply (spins_unique (fun s => fM (f s))); eassumption].
Qed.
Lemma resists_unique : forall g b f t d x y, (forall s, rigid (f s)) -> resists g b f t d x -> resists g b f t d y -> x = y.
Proof.
  intros g b f t d x y R (v & a & n & V1 & A1 & N1 & ->) (v' & a' & n' & V2 & A2 & N2 & ->).
  assert (E : forall s, v s = v' s) by (intro s; eapply velocity_unique; eauto).
  assert (a = a') as ->. { eapply vr_unique; [exact A1|]. eapply vr_ext; [|exact A2]. intro s. cbv beta. rewrite E. reflexivity. }
  assert (n = n') as ->. { eapply vr_unique; [exact N1|]. eapply vr_ext; [|exact N2]. intro s. cbv beta. rewrite E. reflexivity. }
  reflexivity.
Qed.
Lemma resists_rest : forall g b h t d x, rigid h -> resists g b (fun _ => h) t d x -> x = - (b_mass b * dot g (vadd (t_vel d) (cross (t_rot d) (mv (fM h) (b_cog b))))).
Proof.
  intros g b h t d x R H. eapply (resists_unique g b (fun _ => h)); [intro; exact R | exact H|].
  exists (fun _ => twist_zero), vzero, vzero. split; [intro; apply velocity_const|]. split; [|split].
  - eapply vr_eq; [apply vr_const | reflexivity].
  - eapply vr_eq; [apply vr_const | reflexivity].
  - rewrite dot_zero_l. replace (vsub vzero g) with (vneg g) by (unfold vzero; vlin). rewrite dot_neg_l. ring.
Qed.
Lemma dl_sum : forall A (f : A -> R -> R) (d : A -> R) l t, (forall x, In x l -> derivable_pt_lim (f x) t (d x)) -> derivable_pt_lim (fun s => sum (map (fun x => f x s) l)) t (sum (map d l)).
Proof.
  intros A f d l t. induction l as [|x l IH]; intro H; cbn [map sum fold_right]; [apply dl_const|].
  apply (dl_plus (f x) (fun s => sum (map (fun y => f y s) l))); [apply H; left; reflexivity | apply IH; intros; apply H; right; assumption].
Qed.
Lemma combine_index : forall A B (h : A * B -> R) (l : list A) (m : list B) a b, (length l <= length m)%nat -> (forall z, h (a, z) = 0) ->
  sum (map h (combine l m)) = sum (map (fun i => h (nth i l a, nth i m b)) (seq 0 (length m))).
Proof.
  intros A B h. induction l as [|x l IH]; intros m a b L Z.
  - cbn [combine map sum fold_right]. symmetry. induction m as [|y m IHm]; [reflexivity|]. cbn [length]. rewrite sum_shift. cbn [nth]. rewrite Z.
    erewrite sum_ext; [rewrite IHm; [ring | cbn; lia]|]. intros i _. cbv beta. destruct i; cbn [nth]; rewrite ?Z; reflexivity.
  - destruct m as [|y m]; [cbn in L; lia|]. cbn [combine map length]. rewrite sum_shift. cbn [nth]. unfold sum. cbn [fold_right]. f_equal. apply (IH m a b); auto. cbn in L. lia.
Qed.
Lemma potential_index : forall g bs c q, (length bs <= length c)%nat -> length q = nr_of_joints c ->
  potential g bs c q = sum (map (fun i => - (b_mass (nth i bs no_body) * dot g (fapp (place c q i) (b_cog (nth i bs no_body))))) (seq 0 (length c))).
Proof.
  intros g bs c q L Lq. unfold potential. rewrite (combine_index _ _ _ bs (places fid c q) no_body fid).
  - rewrite places_len by exact Lq. reflexivity.
  - rewrite places_len by exact Lq. exact L.
  - intro z. cbn [fst no_body b_mass]. ring.
Qed.
Lemma moving_length : forall q u t, length u = length q -> length (moving q u t) = length q.
Proof. intros. unfold moving. rewrite map_length, combine_length. lia. Qed.

Theorem rne_rest : forall g bs c q n fs ts u, solid c -> (length bs <= length c)%nat -> n = nr_of_joints c ->
  rne g (map inertia_of bs) c q (repeat 0 n) (repeat 0 n) fs = Some ts -> length u = n ->
  length ts = n /\ length q = n /\
  exists ds,
    (forall i, (i < length c)%nat -> velocity_of (fun s => place c (moving q u s) i) 0 (ds i)) /\
    derivable_pt_lim (fun s => potential g bs c (moving q u s)) 0
      (power ts u + sum (map (fun i => wrench_power (wrot (fM (place c q i)) (nth i fs wrench_zero)) (ds i)) (seq 0 (length c)))).
Proof.
  intros g bs c q n fs ts u H Lb -> E L.
  assert (Lq : length q = nr_of_joints c).
  { unfold rne in E. destruct (Nat.eqb (length fs) (length c)) eqn:Ef; [|discriminate]. apply Nat.eqb_eq in Ef.
    destruct (rne_pass _ _ _ _ _ _) as [[f1 ts1]|] eqn:E1; [|discriminate].
    assert (Hb : Forall (fun b => sol (fst (fst b))) (loaded (map inertia_of bs) c fs)).
    { apply Forall_forall. intros b Hb. unfold solid in H. rewrite Forall_forall in H. apply H.
      rewrite <- (loaded_chain (map inertia_of bs) c fs Ef) at 1. apply in_map_iff. exists b. auto. }
    pose proof (virtual_work _ _ _ twist_zero _ _ _ u _ _ Hb E1) as V. cbv zeta in V. rewrite loaded_chain in V by exact Ef. apply V, L. }
  set (js := map (fun x (_ : R) => x) q). set (vs := map (fun _ (_ : R) => 0) q).
  assert (Ej : forall t, at_time js t = q). { intro t. unfold at_time, js. rewrite map_map. apply map_id. }
  assert (Ev : at_time vs 0 = repeat 0 (nr_of_joints c)).
  { unfold at_time, vs. rewrite map_map, <- Lq. clear. induction q; cbn; f_equal; auto. }
  assert (D : Forall2 (fun j v => forall s, derivable_pt_lim j s (v s)) js vs).
  { unfold js, vs. clear. induction q; constructor; auto. intro. apply dl_const. }
  assert (DD : Forall2 (fun v r => derivable_pt_lim v 0 r) vs (repeat 0 (nr_of_joints c))).
  { unfold vs. rewrite <- Lq. clear. induction q; constructor; auto. apply dl_const. }
  pose proof (rne_dalembert g bs c js vs (repeat 0 (nr_of_joints c)) 0 fs ts u H D DD) as T. rewrite Ej, Ev in T.
  destruct (T E L) as (Lt & ds & xs & P & S). split; [exact Lt|]. split; [exact Lq|].
  exists ds. split; [intros i I; apply P, I|]. rewrite S.
  apply dl_ext with (fun s => sum (map (fun i => - (b_mass (nth i bs no_body) * dot g (fapp (place c (moving q u s) i) (b_cog (nth i bs no_body))))) (seq 0 (length c)))).
  { intro s. symmetry. apply potential_index; [exact Lb|]. rewrite moving_length; congruence. }
  apply dl_sum with (f := fun i s => - (b_mass (nth i bs no_body) * dot g (fapp (place c (moving q u s) i) (b_cog (nth i bs no_body))))).
  intros i I. apply in_seq in I. destruct (P i ltac:(lia)) as [Vi Ri].
  assert (R' : resists g (nth i bs no_body) (fun _ => place c q i) 0 (ds i) (xs i)).
  { destruct Ri as (v & a & m & V1 & A1 & N1 & X). exists v, a, m. rewrite Ej in X.
    split; [intro s; eapply velocity_ext; [|apply V1]; intro; cbv beta; rewrite Ej; reflexivity|].
    split; [eapply vr_ext; [|exact A1]; intro; cbv beta; rewrite Ej; reflexivity|].
    split; [eapply vr_ext; [|exact N1]; intro; cbv beta; rewrite Ej; reflexivity | exact X]. }
  rewrite (resists_rest g (nth i bs no_body) (place c q i) 0 (ds i) (xs i) (place_rigid c q i H) R').
  apply dl_opp. set (b := nth i bs no_body).
  assert (Z : moving q u 0 = q). { rewrite moving_line. apply line_start. congruence. }
  apply velocity_split in Vi. destruct Vi as [V1 V2].
  assert (Y : vec_rate (fun s => fapp (place c (moving q u s) i) (b_cog b)) 0 (vadd (t_vel (ds i)) (cross (t_rot (ds i)) (mv (fM (place c q i)) (b_cog b))))).
  { unfold fapp. eapply vr_eq; [apply vr_add; [apply (vr_spin (fun s => fM (place c (moving q u s) i)) (fun _ => b_cog b) 0 _ vzero V2), vr_const | exact V1]|].
    cbv beta. rewrite Z, mv_zero, vadd_zero_r. apply vadd_comm. }
  eapply dl_eq; [apply dl_mult; [apply dl_const | apply dl_dot; [apply vr_const | exact Y]]|]. cbv beta. rewrite dot_zero_l. ring.
Qed.

(** ** The end of the chain *)
Lemma places_last : forall c f q h, chain_fk f c q = Some h -> c <> [] -> length q = nr_of_joints c /\ nth (length c - 1) (places f c q) fid = h.
Proof.
  induction c as [|s c IH]; intros f q h E N; [contradiction|]. clear N. rewrite nr_cons. cbn [chain_fk places] in *.
  destruct (is_fixed (s_joint s)).
  - destruct c as [|s' c]; [|destruct (IH _ _ _ E ltac:(discriminate)) as [A B]; split; [exact A|]; cbn [length Nat.sub] in *; rewrite ?Nat.sub_0_r in *; cbn [nth]; exact B].
    cbn in E. destruct q; [|discriminate]. split; [reflexivity|]. cbn. congruence.
  - destruct q as [|x q]; [discriminate|].
    destruct c as [|s' c]; [|destruct (IH _ _ _ E ltac:(discriminate)) as [A B]; split; [cbn; f_equal; exact A|]; cbn [length Nat.sub] in *; rewrite ?Nat.sub_0_r in *; cbn [nth]; exact B].
    cbn in E. destruct q; [|discriminate]. split; [reflexivity|]. cbn. congruence.
Qed.
Lemma fk_some : forall c f q, length q = nr_of_joints c -> exists h, chain_fk f c q = Some h.
Proof.
  induction c as [|s c IH]; intros f q L; cbn [chain_fk].
  - destruct q; [eauto | discriminate].
  - rewrite nr_cons in L. destruct (is_fixed (s_joint s)); [auto|]. destruct q; [discriminate|]. apply IH. cbn in L. lia.
Qed.
Lemma only_last : forall (d : nat -> twist) (m : nat -> mat) w k,
  sum (map (fun i => wrench_power (wrot (m i) (nth i (repeat wrench_zero k ++ [w]) wrench_zero)) (d i)) (seq 0 (Datatypes.S k))) = wrench_power (wrot (m k) w) (d k).
Proof.
  intros d m w k. replace (Datatypes.S k) with (k + 1)%nat by lia. rewrite seq_app, map_app. unfold sum. rewrite fold_right_app. cbn [seq map fold_right Nat.add].
  rewrite app_nth2 by (rewrite repeat_length; lia). rewrite repeat_length, Nat.sub_diag. cbn [nth]. rewrite Rplus_0_r.
  assert (Z : forall l a, (forall i, In i l -> (i < k)%nat) -> fold_right Rplus a (map (fun i => wrench_power (wrot (m i) (nth i (repeat wrench_zero k ++ [w]) wrench_zero)) (d i)) l) = a).
  { induction l as [|i l IH]; intros a Hl; [reflexivity|]. cbn [map fold_right]. rewrite IH by (intros; apply Hl; right; assumption).
    rewrite app_nth1 by (rewrite repeat_length; apply Hl; left; reflexivity).
    replace (nth i (repeat wrench_zero k) wrench_zero) with wrench_zero by (clear; revert i; induction k; intros [|i]; cbn; auto).
    unfold wrench_power, wrot, wrench_zero. cbn [w_force w_torque]. rewrite !mv_zero, !dot_zero_l. ring. }
  apply Z. intros i I. apply in_seq in I. lia.
Qed.
Lemma none_there : forall (d : nat -> twist) (m : nat -> mat) k n,
  sum (map (fun i => wrench_power (wrot (m i) (nth i (repeat wrench_zero k) wrench_zero)) (d i)) (seq 0 n)) = 0.
Proof.
  intros d m k n. transitivity (sum (map (fun _ : nat => 0) (seq 0 n))).
  - apply sum_ext. intros i _. cbv beta. replace (nth i (repeat wrench_zero k) wrench_zero) with wrench_zero by (clear; revert i; induction k; intros [|i]; cbn; auto).
    unfold wrench_power, wrot, wrench_zero. cbn [w_force w_torque]. rewrite !mv_zero, !dot_zero_l. ring.
  - unfold sum. induction (seq 0 n) as [|y l IHl]; cbn [map fold_right]; [reflexivity | rewrite IHl; ring].
Qed.
