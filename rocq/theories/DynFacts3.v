(** The links of a chain that moves: velocities, accelerations, and the virtual work of what moves them. *)
From Coq Require Import Reals Lra Lia List Bool.
From Verif Require Import Kdl KdlFacts KdlRot KinRep KdlSolver Ft Config Tree TreeSpec Dyn AsibotSpec DynSpec DynFacts DynFacts2.
Import ListNotations.
Open Scope R_scope.
Local Notation length := List.length.

Definition at_time (js : list (R -> R)) (t : R) : list R := map (fun j => j t) js.
Definition twist_rate (b : R -> twist) (t : R) (d : twist) : Prop := vec_rate (fun s => t_vel (b s)) t (t_vel d) /\ vec_rate (fun s => t_rot (b s)) t (t_rot d).
Lemma tr_eq : forall b t d d', twist_rate b t d -> d = d' -> twist_rate b t d'.
Proof. intros. subst. assumption. Qed.

Lemma tr_next : forall s x xd t b db xdd, sol s -> derivable_pt_lim x t (xd t) -> derivable_pt_lim xd t xdd -> twist_rate b t db ->
  let X := segment_pose s (x t) in let vj := tscale (xd t) (screw s) in
  twist_rate (fun u => tadd (ftwist_inv (segment_pose s (x u)) (b u)) (tscale (xd u) (screw s))) t
    (tadd (tadd (ftwist_inv X db) (tscale xdd (screw s))) (tcross (tadd (ftwist_inv X (b t)) vj) vj)).
Proof.
  intros s x xd t b db xdd H D DD [B1 B2] X vj.
  pose proof (segment_velocity s x t (xd t) H D) as VX. rewrite screw_twist' in VX by exact H. fold X vj in VX.
  apply velocity_split in VX. destruct VX as [P W]. cbn [trot t_vel t_rot] in P, W. fold X in P, W.
  assert (RX : rigid X) by apply segment_rigid, H.
  split; unfold tadd, ftwist_inv, tscale, tcross; cbn [t_vel t_rot].
  - eapply vr_eq; [apply vr_add;
      [apply vr_unspin; [exact W | apply vr_sub; [exact B1 | apply vr_cross; [exact P | exact B2]]]
      | apply vr_scale; [exact DD | apply vr_const]]|].
    cbv beta. fold X. unfold vj, tscale. cbn [t_vel t_rot].
    set (sv := t_vel (screw s)). set (sr := t_rot (screw s)).
    set (N := mT (fM X)) in *. assert (RN : rotation_matrix N) by apply rot_mT, RX.
    assert (E : forall z, mv N (mv (fM X) z) = z) by (intro; apply mv_mT_l, RX).
    repeat first [rewrite mv_sub | rewrite mv_add | rewrite (cross_rot N) by exact RN | rewrite !E].
    set (a := mv N (t_rot (b t))). set (p := mv N (fp X)). set (y := mv N (t_vel (b t))). set (da := mv N (t_rot db)). set (dy := mv N (t_vel db)).
    clearbody a p y da dy sv sr. clear. vring.
  - eapply vr_eq; [apply vr_add; [apply vr_unspin; [exact W | exact B2] | apply vr_scale; [exact DD | apply vr_const]]|].
    cbv beta. fold X. unfold vj, tscale. cbn [t_vel t_rot]. set (sr := t_rot (screw s)).
    set (N := mT (fM X)) in *. assert (RN : rotation_matrix N) by apply rot_mT, RX.
    assert (E : forall z, mv N (mv (fM X) z) = z) by (intro; apply mv_mT_l, RX).
    repeat first [rewrite mv_sub | rewrite (cross_rot N) by exact RN | rewrite !E].
    set (a := mv N (t_rot (b t))). set (da := mv N (t_rot db)). clearbody a da sr. clear. vring.
Qed.

(** ** All the links *)
(** velocities in their own axes *)
Fixpoint track (b : twist) (c : chain) (q v : list R) : list twist :=
  match c with
  | [] => []
  | s :: c' =>
      if is_fixed (s_joint s) then let b' := tadd (ftwist_inv (segment_pose s 0) b) (tscale 0 (screw s)) in b' :: track b' c' q v
      else match q, v with
           | x :: q', xd :: v' => let b' := tadd (ftwist_inv (segment_pose s x) b) (tscale xd (screw s)) in b' :: track b' c' q' v'
           | _, _ => []
           end
  end.
(** rates of those *)
Fixpoint accel (b a : twist) (c : chain) (q v w : list R) : list twist :=
  match c with
  | [] => []
  | s :: c' =>
      let go x xd xdd q' v' w' :=
        let vj := tscale xd (screw s) in
        let b' := tadd (ftwist_inv (segment_pose s x) b) vj in
        let a' := tadd (tadd (ftwist_inv (segment_pose s x) a) (tscale xdd (screw s))) (tcross b' vj) in
        a' :: accel b' a' c' q' v' w' in
      if is_fixed (s_joint s) then go 0 0 0 q v w
      else match q, v, w with
           | x :: q', xd :: v', xdd :: w' => go x xd xdd q' v' w'
           | _, _, _ => []
           end
  end.
Lemma nr_cons : forall s c, nr_of_joints (s :: c) = if is_fixed (s_joint s) then nr_of_joints c else Datatypes.S (nr_of_joints c).
Proof. intros. unfold nr_of_joints. cbn [filter]. destruct (is_fixed (s_joint s)); reflexivity. Qed.

Lemma places_fly : forall c f b js v t i, Forall sol c -> rigid (f t) -> flies f t b -> length js = nr_of_joints c ->
  Forall2 (fun j r => derivable_pt_lim j t r) js v -> (i < length c)%nat ->
  flies (fun s => nth i (places (f s) c (at_time js s)) fid) t (nth i (track b c (at_time js t) v) twist_zero).
Proof.
  induction c as [|s c IH]; intros f b js v t i H R B L D I; [cbn in I; lia|].
  inversion H as [|? ? H1 H2]; subst. rewrite nr_cons in L. cbn [places track].
  destruct (is_fixed (s_joint s)) eqn:Fx.
  - pose proof (flies_fixed f t b s R H1 B) as B'. destruct i as [|i]; cbn [nth]; [exact B'|].
    apply (IH (fun u => fmul (f u) (segment_pose s 0))); auto.
    + apply rigid_mul; [exact R | apply segment_rigid, H1].
    + cbn [length] in I. lia.
  - inversion D as [|x xd js' v' D1 D2]; subst; [cbn in L; discriminate|]. cbn [at_time map].
    pose proof (flies_next f t b s x xd R H1 B D1) as B'. destruct i as [|i]; cbn [nth]; [exact B'|].
    cbn [length] in I, L. apply (IH (fun u => fmul (f u) (segment_pose s (x u)))); auto; try lia.
    apply rigid_mul; [exact R | apply segment_rigid, H1].
Qed.
Lemma places_rigid : forall c f q, Forall sol c -> rigid f -> Forall rigid (places f c q).
Proof.
  induction c as [|s c IH]; intros f q H R; [constructor|]. inversion H as [|? ? H1 H2]; subst. cbn [places].
  destruct (is_fixed (s_joint s)).
  - constructor; [|apply IH; auto]; apply rigid_mul; auto; apply segment_rigid, H1.
  - destruct q as [|x q]; constructor; [|apply IH; auto]; apply rigid_mul; auto; apply segment_rigid, H1.
Qed.
Lemma places_len : forall c f q, length q = nr_of_joints c -> length (places f c q) = length c.
Proof.
  induction c as [|s c IH]; intros f q L; [reflexivity|]. rewrite nr_cons in L. cbn [places].
  destruct (is_fixed (s_joint s)); [cbn [length]; f_equal; auto|].
  destruct q as [|x q]; [discriminate|]. cbn [length] in *. f_equal. apply IH. lia.
Qed.
Lemma track_rate : forall c b db js vs w t i, Forall sol c -> twist_rate b t db -> length js = nr_of_joints c ->
  Forall2 (fun j v => derivable_pt_lim j t (v t)) js vs -> Forall2 (fun v r => derivable_pt_lim v t r) vs w -> (i < length c)%nat ->
  twist_rate (fun s => nth i (track (b s) c (at_time js s) (at_time vs s)) twist_zero) t (nth i (accel (b t) db c (at_time js t) (at_time vs t) w) twist_zero).
Proof.
  induction c as [|s c IH]; intros b db js vs w t i H B L D DD I; [cbn in I; lia|].
  inversion H as [|? ? H1 H2]; subst. rewrite nr_cons in L. cbn [track accel].
  destruct (is_fixed (s_joint s)) eqn:Fx.
  - pose proof (tr_next s (fun _ => 0) (fun _ => 0) t b db 0 H1 (dl_const 0 t) (dl_const 0 t) B) as B'. cbv zeta beta in B'.
    destruct i as [|i]; cbn [nth]; [exact B'|]. cbn [length] in I.
    apply (IH (fun u => tadd (ftwist_inv (segment_pose s 0) (b u)) (tscale 0 (screw s)))); auto; lia.
  - inversion D as [|x xd js' vs' D1 D2]; subst; [cbn in L; discriminate|]. inversion DD as [|? xdd ? w' E1 E2]; subst. cbn [at_time map].
    pose proof (tr_next s x xd t b db xdd H1 D1 E1 B) as B'. cbv zeta beta in B'.
    destruct i as [|i]; cbn [nth]; [exact B'|]. cbn [length] in I, L.
    apply (IH (fun u => tadd (ftwist_inv (segment_pose s (x u)) (b u)) (tscale (xd u) (screw s)))); auto; lia.
Qed.
(** gravity, as an acceleration of the base *)
Definition heavy (g : vec) (m : mat) (a : twist) : twist := tadd a (Tw (vneg (mv (mT m) g)) vzero).
Lemma heavy_next : forall g f X a y z, heavy g (fM (fmul f X)) (tadd (tadd (ftwist_inv X a) y) z) = tadd (tadd (ftwist_inv X (heavy g (fM f) a)) y) z.
Proof.
  intros. unfold heavy, tadd, ftwist_inv. cbn [t_vel t_rot fmul fM]. apply (f_equal2 Tw).
  - rewrite vadd_zero_r, mT_mm, mv_mm. rewrite <- !mv_neg.
    replace (vsub (vadd (t_vel a) (mv (mT (fM f)) (vneg g))) (cross (fp X) (t_rot a))) with (vadd (vsub (t_vel a) (cross (fp X) (t_rot a))) (mv (mT (fM f)) (vneg g))) by (generalize (mv (mT (fM f)) (vneg g)), (cross (fp X) (t_rot a)); vlin).
    rewrite mv_add. vlin.
  - rewrite !vadd_zero_r. reflexivity.
Qed.
Lemma accel_heavy : forall c g f b a q v w i, length q = nr_of_joints c -> length v = nr_of_joints c -> length w = nr_of_joints c -> (i < length c)%nat ->
  nth i (accel b (heavy g (fM f) a) c q v w) twist_zero = heavy g (fM (nth i (places f c q) fid)) (nth i (accel b a c q v w) twist_zero).
Proof.
  induction c as [|s c IH]; intros g f b a q v w i Lq Lv Lw I; [cbn in I; lia|].
  rewrite nr_cons in Lq, Lv, Lw. cbn [accel places]. destruct (is_fixed (s_joint s)).
  - destruct i as [|i]; cbn [nth]; [symmetry; apply heavy_next|]. cbn [length] in I. rewrite <- heavy_next. apply IH; auto. lia.
  - destruct q as [|x q], v as [|xd v], w as [|xdd w]; try discriminate. cbn [length] in *.
    destruct i as [|i]; cbn [nth]; [symmetry; apply heavy_next|]. rewrite <- heavy_next. apply IH; auto; lia.
Qed.

(** ** Virtual work *)
Lemma power_frames : forall X a w, rigid X -> tdot (ftwist_inv X a) w = tdot a (fwrench X w).
Proof.
  intros X a w R. unfold tdot, ftwist_inv, fwrench. cbn [t_vel t_rot w_force w_torque]. rewrite <- !dot_mT. rewrite dot_sub_l, dot_add_r.
  set (y := mv (fM X) (w_force w)). set (z := mv (fM X) (w_torque w)). vring.
Qed.
Lemma tdot_add_l : forall a b w, tdot (tadd a b) w = tdot a w + tdot b w.
Proof. intros. unfold tdot, tadd. cbn [t_vel t_rot]. rewrite !dot_add_l. ring. Qed.
Lemma tdot_add_r : forall a w y, tdot a (wadd w y) = tdot a w + tdot a y.
Proof. intros. unfold tdot, wadd. cbn [w_force w_torque]. rewrite !dot_add_r. ring. Qed.
Lemma tdot_sub_r : forall a w y, tdot a (wsub w y) = tdot a w - tdot a y.
Proof. intros. unfold tdot, wsub. cbn [w_force w_torque]. rewrite !dot_sub_r. ring. Qed.
Lemma tdot_scale_l : forall k a w, tdot (tscale k a) w = k * tdot a w.
Proof. intros. unfold tdot, tscale. cbn [t_vel t_rot]. rewrite !dot_scale_l. ring. Qed.
(** what acts on a link to move it so *)
Definition push (i : rb_inertia) (a v : twist) : wrench := wadd (rb_mul i a) (twcross v (rb_mul i v)).
Fixpoint works (bs : list (segment * rb_inertia * wrench)) (ds vs as_ : list twist) : R :=
  match bs, ds, vs, as_ with
  | (_, i, fe) :: bs', d :: ds', v :: vs', a :: as' => tdot d (push i a v) - tdot d fe + works bs' ds' vs' as'
  | _, _, _, _ => 0
  end.
Lemma power_cons : forall t ts u us, power (t :: ts) (u :: us) = t * u + power ts us.
Proof. reflexivity. Qed.
Lemma virtual_work : forall bs v a d q qd qdd u f ts, Forall (fun b => sol (fst (fst b))) bs -> rne_pass v a bs q qd qdd = Some (f, ts) ->
  let c := map (fun b => fst (fst b)) bs in length u = nr_of_joints c ->
  length q = nr_of_joints c /\ length qd = nr_of_joints c /\ length qdd = nr_of_joints c /\ length ts = nr_of_joints c /\
  power ts u + tdot d f = works bs (track d c q u) (track v c q qd) (accel v a c q qd qdd).
Proof.
  induction bs as [|[[s i] fe] bs IH]; intros v a d q qd qdd u f ts H E c L.
  - cbn [rne_pass] in E. destruct q, qd, qdd; try discriminate. injection E as <- <-. cbn in L. destruct u; [|discriminate].
    repeat split; auto. cbn. unfold tdot, wrench_zero. cbn [w_force w_torque]. rewrite !dot_zero_r. cbn. ring.
  - inversion H as [|? ? H1 H2]; subst. cbn [fst] in H1. unfold c in *. clear c. cbn [map fst] in *. rewrite nr_cons in *. cbn [rne_pass] in E. cbv zeta in E.
    cbn [track accel]. cbv zeta. destruct (is_fixed (s_joint s)) eqn:Fx.
    + rewrite !screw_twist in E by exact H1.
      set (X := segment_pose s 0) in *. set (v' := tadd (ftwist_inv X v) (tscale 0 (screw s))) in *.
      set (a' := tadd (tadd (ftwist_inv X a) (tscale 0 (tscale 1 (screw s)))) (tcross v' (tscale 0 (screw s)))) in *.
      assert (RX : rigid X) by apply segment_rigid, H1.
      destruct (rne_pass v' a' bs q qd qdd) as [[f1 ts1]|] eqn:E1; [|discriminate]. injection E as <- <-.
      assert (A' : a' = tadd (tadd (ftwist_inv X a) (tscale 0 (screw s))) (tcross v' (tscale 0 (screw s)))).
      { unfold a'. f_equal. f_equal. unfold tscale. cbn [t_vel t_rot]. rewrite !vscale_1. reflexivity. }
      destruct (IH _ _ (tadd (ftwist_inv X d) (tscale 0 (screw s))) _ _ _ u _ _ H2 E1 L) as (K1 & K2 & K3 & K4 & K5).
      repeat split; auto. cbn [works]. rewrite <- A', <- K5. rewrite <- power_frames by exact RX.
      unfold push. rewrite !tdot_add_l, !tdot_add_r, !tdot_sub_r, !tdot_scale_l, !tdot_add_r. ring.
    + destruct q as [|x q], qd as [|xd qd], qdd as [|xdd qdd]; try discriminate. destruct u as [|y u]; [discriminate|].
      rewrite !screw_twist in E by exact H1.
      set (X := segment_pose s x) in *. set (v' := tadd (ftwist_inv X v) (tscale xd (screw s))) in *.
      set (a' := tadd (tadd (ftwist_inv X a) (tscale xdd (tscale 1 (screw s)))) (tcross v' (tscale xd (screw s)))) in *.
      assert (RX : rigid X) by apply segment_rigid, H1.
      destruct (rne_pass v' a' bs q qd qdd) as [[f1 ts1]|] eqn:E1; [|discriminate]. injection E as <- <-.
      assert (S1 : tscale 1 (screw s) = screw s) by (unfold tscale; rewrite !vscale_1; destruct (screw s); reflexivity).
      assert (A' : a' = tadd (tadd (ftwist_inv X a) (tscale xdd (screw s))) (tcross v' (tscale xd (screw s)))).
      { unfold a'. rewrite S1. reflexivity. }
      cbn [length] in L. injection L as L.
      destruct (IH _ _ (tadd (ftwist_inv X d) (tscale y (screw s))) _ _ _ u _ _ H2 E1 L) as (K1 & K2 & K3 & K4 & K5).
      cbn [length]. repeat split; auto. rewrite power_cons. cbn [works]. rewrite <- A', <- K5. rewrite <- power_frames by exact RX. rewrite S1.
      unfold push. rewrite !tdot_add_l, !tdot_add_r, !tdot_sub_r, !tdot_scale_l, !tdot_add_r. ring.
Qed.
