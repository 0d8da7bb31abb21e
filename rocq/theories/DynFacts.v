(** Rates of vectors, rotations and frames; velocity of a segment and of a chain. *)
From Coq Require Import Reals Lra List Bool.
From Verif Require Import Kdl KdlFacts KdlRot KinRep KdlSolver Ft Config Tree Dyn AsibotSpec DynSpec.
Import ListNotations.
Open Scope R_scope.
Local Notation length := List.length.

Lemma dl_eq : forall f t l l', derivable_pt_lim f t l -> l = l' -> derivable_pt_lim f t l'.
Proof. intros. subst. assumption. Qed.
Lemma dl_ext : forall f g t l, (forall s, f s = g s) -> derivable_pt_lim f t l -> derivable_pt_lim g t l.
Proof. intros f g t l E H eps He. destruct (H eps He) as [d Hd]. exists d. intros h Hh Hs. rewrite <- !E. apply Hd; assumption. Qed.
Lemma dl_plus : forall f g t a b, derivable_pt_lim f t a -> derivable_pt_lim g t b -> derivable_pt_lim (fun s => f s + g s) t (a + b).
Proof. intros. apply (derivable_pt_lim_plus f g); assumption. Qed.
Lemma dl_minus : forall f g t a b, derivable_pt_lim f t a -> derivable_pt_lim g t b -> derivable_pt_lim (fun s => f s - g s) t (a - b).
Proof. intros. apply (derivable_pt_lim_minus f g); assumption. Qed.
Lemma dl_opp : forall f t a, derivable_pt_lim f t a -> derivable_pt_lim (fun s => - f s) t (- a).
Proof. intros. apply (derivable_pt_lim_opp f); assumption. Qed.
Lemma dl_mult : forall f g t a b, derivable_pt_lim f t a -> derivable_pt_lim g t b -> derivable_pt_lim (fun s => f s * g s) t (a * g t + f t * b).
Proof. intros. apply (derivable_pt_lim_mult f g); assumption. Qed.
Lemma dl_const : forall k t, derivable_pt_lim (fun _ => k) t 0.
Proof. intros. apply (derivable_pt_lim_const k). Qed.
Lemma dl_id : forall t, derivable_pt_lim (fun s => s) t 1.
Proof. intros. apply derivable_pt_lim_id. Qed.
Lemma dl_cos : forall f t a, derivable_pt_lim f t a -> derivable_pt_lim (fun s => cos (f s)) t (- sin (f t) * a).
Proof. intros. apply (derivable_pt_lim_comp f cos); [assumption|]. apply derivable_pt_lim_cos. Qed.
Lemma dl_sin : forall f t a, derivable_pt_lim f t a -> derivable_pt_lim (fun s => sin (f s)) t (cos (f t) * a).
Proof. intros. apply (derivable_pt_lim_comp f sin); [assumption|]. apply derivable_pt_lim_sin. Qed.
Ltac dl := repeat first [ eassumption | apply dl_const | apply dl_id | apply dl_plus | apply dl_minus | apply dl_opp | apply dl_cos | apply dl_sin | apply dl_mult ].
Ltac dlr := eapply dl_eq; [dl | cbv beta; ring].

(** ** Vectors *)
Lemma vr_eq : forall f t a b, vec_rate f t a -> a = b -> vec_rate f t b.
Proof. intros. subst. assumption. Qed.
Lemma vr_ext : forall f g t a, (forall s, f s = g s) -> vec_rate f t a -> vec_rate g t a.
Proof. intros f g t a E (A & B & C). repeat split; (eapply dl_ext; [|eassumption]); intros; cbn beta; rewrite E; reflexivity. Qed.
Lemma vr_const : forall k t, vec_rate (fun _ => k) t vzero.
Proof. intros. repeat split; apply dl_const. Qed.
Lemma vr_add : forall f g t a b, vec_rate f t a -> vec_rate g t b -> vec_rate (fun s => vadd (f s) (g s)) t (vadd a b).
Proof. intros f g t a b (A1 & A2 & A3) (B1 & B2 & B3). repeat split; cbn [vadd vx vy vz]; dl. Qed.
Lemma vr_sub : forall f g t a b, vec_rate f t a -> vec_rate g t b -> vec_rate (fun s => vsub (f s) (g s)) t (vsub a b).
Proof. intros f g t a b (A1 & A2 & A3) (B1 & B2 & B3). repeat split; cbn [vsub vx vy vz]; dl. Qed.
Lemma vr_scale : forall k f t a b, derivable_pt_lim k t a -> vec_rate f t b -> vec_rate (fun s => vscale (k s) (f s)) t (vadd (vscale a (f t)) (vscale (k t) b)).
Proof. intros k f t a b K (B1 & B2 & B3). repeat split; cbn [vscale vadd vx vy vz]; dlr. Qed.
Lemma vr_cross : forall f g t a b, vec_rate f t a -> vec_rate g t b -> vec_rate (fun s => cross (f s) (g s)) t (vadd (cross a (g t)) (cross (f t) b)).
Proof. intros f g t a b (A1 & A2 & A3) (B1 & B2 & B3). repeat split; cbn [cross vadd vx vy vz]; dlr. Qed.
Lemma dl_dot : forall f g t a b, vec_rate f t a -> vec_rate g t b -> derivable_pt_lim (fun s => dot (f s) (g s)) t (dot a (g t) + dot (f t) b).
Proof. intros f g t a b (A1 & A2 & A3) (B1 & B2 & B3). unfold dot. dlr. Qed.
Lemma vr_mv : forall m f t a, vec_rate f t a -> vec_rate (fun s => mv m (f s)) t (mv m a).
Proof. intros m f t a (A1 & A2 & A3). repeat split; cbn [mv vx vy vz]; dlr. Qed.

(** ** Rotations *)
Definition spins (m : R -> mat) (t : R) (w : vec) : Prop :=
  derivable_pt_lim (fun u => m00 (m u)) t (vy w * m20 (m t) - vz w * m10 (m t)) /\
  derivable_pt_lim (fun u => m01 (m u)) t (vy w * m21 (m t) - vz w * m11 (m t)) /\
  derivable_pt_lim (fun u => m02 (m u)) t (vy w * m22 (m t) - vz w * m12 (m t)) /\
  derivable_pt_lim (fun u => m10 (m u)) t (vz w * m00 (m t) - vx w * m20 (m t)) /\
  derivable_pt_lim (fun u => m11 (m u)) t (vz w * m01 (m t) - vx w * m21 (m t)) /\
  derivable_pt_lim (fun u => m12 (m u)) t (vz w * m02 (m t) - vx w * m22 (m t)) /\
  derivable_pt_lim (fun u => m20 (m u)) t (vx w * m10 (m t) - vy w * m00 (m t)) /\
  derivable_pt_lim (fun u => m21 (m u)) t (vx w * m11 (m t) - vy w * m01 (m t)) /\
  derivable_pt_lim (fun u => m22 (m u)) t (vx w * m12 (m t) - vy w * m02 (m t)).
Lemma velocity_split : forall f t c, velocity_of f t c <-> vec_rate (fun s => fp (f s)) t (t_vel c) /\ spins (fun s => fM (f s)) t (t_rot c).
Proof.
  intros f t c. split.
  - intros (A & B & C & D). split; [repeat split; assumption|exact D].
  - intros [(A & B & C) D]. unfold velocity_of. repeat (split; [assumption|]). exact D.
Qed.
Lemma spins_ext : forall f g t w, (forall s, f s = g s) -> spins f t w -> spins g t w.
Proof.
  intros f g t w E (A & B & C & D & E1 & G & H & I & K). unfold spins. rewrite <- !E.
  repeat split; (eapply dl_ext; [|eassumption]); intros; cbn beta; rewrite E; reflexivity.
Qed.
Lemma velocity_ext : forall f g t c, (forall s, f s = g s) -> velocity_of f t c -> velocity_of g t c.
Proof.
  intros f g t c E H. apply velocity_split in H. destruct H as [H1 H2]. apply velocity_split. split.
  - eapply vr_ext; [|exact H1]. intros. cbn beta. rewrite E. reflexivity.
  - eapply spins_ext; [|exact H2]. intros. cbn beta. rewrite E. reflexivity.
Qed.
Lemma velocity_eq : forall f t c d, velocity_of f t c -> c = d -> velocity_of f t d.
Proof. intros. subst. assumption. Qed.
Lemma spins_const : forall m t, spins (fun _ => m) t vzero.
Proof. intros. unfold spins. cbn [vzero vx vy vz]. repeat split; (eapply dl_eq; [apply dl_const | ring]). Qed.
Lemma vr_spin : forall m f t w a, spins m t w -> vec_rate f t a -> vec_rate (fun s => mv (m s) (f s)) t (vadd (cross w (mv (m t) (f t))) (mv (m t) a)).
Proof.
  intros m f t w a (A & B & C & D & E & G & H & I & K) (A1 & A2 & A3). repeat split; cbn [mv cross vadd vx vy vz]; dlr.
Qed.
Lemma vr_unspin : forall m f t w a, spins m t w -> vec_rate f t a -> vec_rate (fun s => mv (mT (m s)) (f s)) t (mv (mT (m t)) (vsub a (cross w (f t)))).
Proof.
  intros m f t w a (A & B & C & D & E & G & H & I & K) (A1 & A2 & A3). repeat split; cbn [mv mT cross vsub vx vy vz m00 m01 m02 m10 m11 m12 m20 m21 m22]; dlr.
Qed.
Lemma spins_of : forall m t w, (forall c, vec_rate (fun s => mv (m s) c) t (cross w (mv (m t) c))) -> spins m t w.
Proof.
  intros m t w H.
  pose proof (H (V 1 0 0)) as (A1 & A2 & A3). pose proof (H (V 0 1 0)) as (B1 & B2 & B3). pose proof (H (V 0 0 1)) as (C1 & C2 & C3).
  cbn [mv cross vx vy vz] in *.
  repeat split; first
    [ eapply dl_eq; [eapply dl_ext; [|exact A1]; intros; cbv beta; ring | ring]
    | eapply dl_eq; [eapply dl_ext; [|exact A2]; intros; cbv beta; ring | ring]
    | eapply dl_eq; [eapply dl_ext; [|exact A3]; intros; cbv beta; ring | ring]
    | eapply dl_eq; [eapply dl_ext; [|exact B1]; intros; cbv beta; ring | ring]
    | eapply dl_eq; [eapply dl_ext; [|exact B2]; intros; cbv beta; ring | ring]
    | eapply dl_eq; [eapply dl_ext; [|exact B3]; intros; cbv beta; ring | ring]
    | eapply dl_eq; [eapply dl_ext; [|exact C1]; intros; cbv beta; ring | ring]
    | eapply dl_eq; [eapply dl_ext; [|exact C2]; intros; cbv beta; ring | ring]
    | eapply dl_eq; [eapply dl_ext; [|exact C3]; intros; cbv beta; ring | ring] ].
Qed.
Lemma spins_mm : forall a b t u w, spins a t u -> spins b t w -> rotation_matrix (a t) -> spins (fun s => mm (a s) (b s)) t (vadd u (mv (a t) w)).
Proof.
  intros a b t u w A B R. apply spins_of. intros c.
  apply vr_ext with (fun s => mv (a s) (mv (b s) c)); [intros; rewrite mv_mm; reflexivity|].
  eapply vr_eq; [apply vr_spin; [exact A|]; apply (vr_spin b (fun _ => c) t w vzero B); apply vr_const|].
  cbn beta. rewrite mv_zero, vadd_zero_r, cross_rot by assumption. rewrite mv_mm, cross_add_l. reflexivity.
Qed.
(** the velocity of a frame told in another that moves *)
Lemma velocity_mul : forall f x t a b, velocity_of f t a -> velocity_of x t b -> rigid (f t) ->
  velocity_of (fun s => fmul (f s) (x s)) t
    (Tw (vadd (vadd (t_vel a) (cross (t_rot a) (mv (fM (f t)) (fp (x t))))) (mv (fM (f t)) (t_vel b))) (vadd (t_rot a) (mv (fM (f t)) (t_rot b)))).
Proof.
  intros f x t a b A B R. apply velocity_split in A. apply velocity_split in B. destruct A as [A1 A2], B as [B1 B2].
  apply velocity_split. cbn [fmul fM fp t_vel t_rot]. split.
  - eapply vr_eq; [apply vr_add; [apply vr_spin; eassumption|eassumption]|]. vlin.
  - apply spins_mm; assumption.
Qed.
