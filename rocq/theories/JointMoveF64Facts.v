(** Proofs about what movj and a streamed pose send to the joints, on doubles (C165). *)
From Coq Require Import List ZArith Reals Lia Lra Bool.
From Flocq Require Import Core IEEE754.BinarySingleNaN.
From Verif Require Import F64 F64Facts F64More Rounded RoundedSpec RoundedFacts AsibotF64 AsibotF64Spec AsibotF64Facts JointMoveF64.
Import ListNotations.
Open Scope R_scope.

Lemma asibot_within : forall m s decode js x guess q, Forall sane js -> asibot m s decode js x guess = Some q ->
  within_limits (map qMin js) (map qMax js) q.
Proof.
  intros m s decode js x guess q SJ H. unfold asibot in H. destruct (decode x guess) as [((((px, py), pz), oy), oz5)|]; [|discriminate].
  destruct (invKin m s (map qMin js) (map qMax js) px py pz oy oz5 guess) as [|q'|] eqn:E; try discriminate. injection H as ->.
  apply (found_within _ _ _ _ _ _ _ _ _ _ _) in E; auto; apply Forall_map; revert SJ; apply Forall_impl; intros j (A & B & _ & _ & C & D & _); split; auto.
Qed.

Lemma pose_within : forall m s decode js enc x q, Forall sane js -> pose (asibot m s decode js) js enc x = Some q ->
  within_limits (map qMin js) (map qMax js) q.
Proof.
  intros m s decode js [currentQ|] x q SJ H; [|discriminate]. unfold pose in H. destruct (asibot m s decode js x currentQ) as [q'|] eqn:E; [|discriminate].
  destruct (checkJointLimitsMoving _ _ _); [|discriminate]. injection H as <-. eapply asibot_within; eauto.
Qed.

(** ** the speeds are numbers *)
Lemma fdiv_nan : forall x y, finite x = true -> isnan y = false -> (finite y = true -> val y <> 0) -> isnan (fdiv x y) = false.
Proof.
  intros x y Fx Ny Zy. destruct (finite y) eqn:Fy.
  - specialize (Zy eq_refl). pose proof (Bdiv_correct 53 1024 p53 p53_1024 mode_NE x y Zy) as H.
    destruct (Rlt_bool _ _).
    + destruct H as (_ & F & _). apply finite_not_nan. unfold fdiv, finite. rewrite F. exact Fx.
    + change (B2SF (fdiv x y) = SpecFloat.S754_infinity (xorb (Bsign x) (Bsign y))) in H. destruct (fdiv x y); try reflexivity; discriminate.
  - destruct x as [?|?| |? ? ? ?], y as [?|?| |? ? ? ?]; try discriminate; reflexivity.
Qed.

(** a time: not NaN, and zero or more *)
Definition time (t : f64) : Prop := isnan t = false /\ fltb t fzero = false.

Lemma longest_time : forall refs ds m, time m -> time (longest refs ds m).
Proof.
  induction refs as [|r refs IH]; intros [|d ds] m T; cbn [longest]; auto. apply IH.
  destruct (fleb r fzero); auto. destruct (fltb m (fdiv d r)) eqn:L; auto. destruct T as (T1 & T2).
  assert (N : isnan (fdiv d r) = false). { destruct (isnan (fdiv d r)) eqn:N; auto. apply isnan_eq in N. rewrite N, fltb_nan_r in L. discriminate. }
  split; auto. apply key_not_lt; auto. apply key_le in T2; auto. apply key_lt in L; auto. lra.
Qed.

Lemma distances_finite : forall refs q qd,
  (forall i x y, nth_error q i = Some x -> nth_error qd i = Some y -> finite x = true /\ finite y = true /\ Rabs (val x) <= 10000000 /\ Rabs (val y) <= 10000000) ->
  Forall (fun d => finite d = true) (distances refs q qd).
Proof.
  induction refs as [|r refs IH]; intros [|x q] [|y qd] H; cbn [distances]; constructor.
  - unfold distance. destruct (fleb r fzero); [reflexivity|]. rewrite fabs_finite. destruct (H 0%nat x y eq_refl eq_refl) as (A & B & C & D).
    apply fsub_ok; auto. pose proof huge_big. pose proof (Rabs_triang (val y) (- val x)) as T. rewrite Rabs_Ropp in T. unfold Rminus. lra.
  - apply IH. intros i a b Ha Hb. exact (H (Datatypes.S i) a b Ha Hb).
Qed.

Lemma speeds_number : forall refs q qd,
  (forall i x y, nth_error q i = Some x -> nth_error qd i = Some y -> finite x = true /\ finite y = true /\ Rabs (val x) <= 10000000 /\ Rabs (val y) <= 10000000) ->
  Forall (fun v => isnan v = false) (snd (computeIsocronousSpeeds refs q qd)).
Proof.
  intros refs q qd H. unfold computeIsocronousSpeeds. cbn [snd]. apply Forall_map.
  pose proof (longest_time refs (distances refs q qd) fzero) as T. specialize (T ltac:(split; reflexivity)).
  set (t := longest refs (distances refs q qd) fzero) in *. clearbody t. pose proof (distances_finite refs q qd H) as D. revert D. apply Forall_impl. intros d Fd.
  destruct (feqb t fzero) eqn:E; [reflexivity|]. apply fdiv_nan; auto; [apply T|]. intros Ft Z. rewrite (proj2 (feqb_val t fzero Ft eq_refl)) in E; [discriminate|]. exact Z.
Qed.

Lemma movj_within : forall m s decode js refs enc x v q, Forall sane js -> length js = 5%nat -> (forall currentQ, enc = Some currentQ -> Forall angle currentQ) ->
  movj (asibot m s decode js) refs enc x = Some (v, q) ->
  within_limits (map qMin js) (map qMax js) q /\ Forall (fun s => isnan s = false) v.
Proof.
  intros m s decode js refs [currentQ|] x v q SJ L5 AQ H; [|discriminate]. unfold movj in H. destruct (asibot m s decode js x currentQ) as [qd|] eqn:E; [|discriminate].
  destruct (computeIsocronousSpeeds refs currentQ qd) as (moves, vmo) eqn:C. destruct moves; [|discriminate]. injection H as <- <-.
  pose proof (asibot_within _ _ _ _ _ _ _ SJ E) as W. split; [exact W|].
  replace vmo with (snd (computeIsocronousSpeeds refs currentQ qd)) by now rewrite C. apply speeds_number.
  intros i a b Ha Hb. specialize (AQ currentQ eq_refl). rewrite Forall_forall in AQ. destruct (AQ a (nth_error_In _ _ Ha)) as (Fa & Ba).
  destruct W as (L & W). assert (I : (i < length js)%nat). { rewrite L5, <- L. apply nth_error_Some. congruence. }
  destruct (nth_error js i) as [j|] eqn:J; [|apply nth_error_None in J; lia].
  destruct (W i b (qMin j) (qMax j) Hb (map_nth_error _ _ _ J) (map_nth_error _ _ _ J)) as (Fb & Bb).
  rewrite Forall_forall in SJ. destruct (SJ j (nth_error_In _ _ J)) as (_ & _ & _ & _ & M1 & M2 & _).
  repeat split; auto; [lra|]. apply Rabs_le. apply Rabs_le_inv in M1, M2. lra.
Qed.

(** ** a solver that does not look at the limits: a joint that slides along x *)
Definition slide : solver := fun x _ => match x with a :: _ => Some [a] | [] => None end.
Definition slider : joint := Joint fzero (ofZ 1) fzero (ofZ 1).
Lemma slider_sane : Forall sane [slider].
Proof.
  constructor; [|constructor]. destruct (ofZ_ok 1 ltac:(lia)) as (A & B). unfold sane, slider. cbn [qMin qMax qdotMin qdotMax].
  change (val fzero) with 0. rewrite A, B. repeat split; try reflexivity; try lra; [rewrite Rabs_R0; lra | rewrite Rabs_pos_eq; lra].
Qed.

Lemma beyond_sent : exists (invKin : solver) js q,
  Forall sane js /\ checkJointLimits js q = true /\
  (exists x v, pose invKin js (Some q) x = Some [v] /\ isnan v = true) /\
  (exists x v j, pose invKin js (Some q) x = Some [v] /\ js = [j] /\ finite v = true /\ val (qMax j) + 1 <= val v).
Proof.
  exists slide, [slider], [lit 5 1]. split; [exact slider_sane|]. split; [vm_compute; reflexivity|]. split.
  - exists [fnan], fnan. split; [|reflexivity]. unfold pose. cbn [slide].
    match goal with |- (if ?b then _ else _) = _ => replace b with true by (vm_compute; reflexivity) end. reflexivity.
  - exists [ofZ 2], (ofZ 2), slider. split.
    { unfold pose. cbn [slide]. match goal with |- (if ?b then _ else _) = _ => replace b with true by (vm_compute; reflexivity) end. reflexivity. }
    destruct (ofZ_ok 1 ltac:(lia)) as (A & B). destruct (ofZ_ok 2 ltac:(lia)) as (C & D).
    split; [reflexivity|]. split; [exact C|]. cbn [slider qMax]. rewrite B, D. lra.
Qed.
