(** Proofs about the representation codecs: what the results mean. *)
From Coq Require Import Reals List Bool Arith Lia Lra.
From Verif Require Import Kdl KdlFacts Trig TrigFacts KdlRot KdlRotFacts KinRep KinRepSpec KinRepFacts.
Import ListNotations.
Open Scope R_scope.
Local Notation S := Datatypes.S.

Lemma d2r : forall u x, degToRadHelper u x = radians u x.
Proof. intros [] x; unfold degToRadHelper, radians, degToRad; [field | reflexivity]. Qed.
Lemma r2d : forall u x, radians u (radToDegHelper u x) = x.
Proof. intros [] x; unfold radToDegHelper, radians, radToDeg; [field; pose proof PI_RGT_0; lra | reflexivity]. Qed.
Lemma r2d' : forall u x, radToDegHelper u (radians u x) = x.
Proof. intros [] x; unfold radToDegHelper, radians, radToDeg; [field; pose proof PI_RGT_0; lra | reflexivity]. Qed.

Lemma normalize_unit_id : forall a, unit a -> normalize a = a.
Proof.
  intros a U. replace a with (vscale 1 a) at 1; [|destruct a; unfold vscale; cbn; f_equal; lra].
  apply normalize_scaled; auto. unfold kdl_eps. lra.
Qed.
Lemma Rot_normalize : forall r t, Rot (normalize r) t = Rot r t.
Proof. intros. unfold Rot. f_equal. apply normalize_unit_id, normalize_unit. Qed.

(** ** Decoding *)
Lemma polar_axis : forall x y, kdl_eps <= norm (V x y 0) ->
  V (- sin (atan2 (- x) y)) (cos (atan2 (- x) y)) 0 = normalize (V x y 0).
Proof.
  intros x y N. pose proof kdl_eps_pos.
  assert (S : norm (V x y 0) * norm (V x y 0) = x * x + y * y).
  { rewrite norm_sqr. unfold dot; cbn. lra. }
  destruct (polar_c (- x) y (norm (V x y 0))) as [C D]; [lra | lra|].
  unfold normalize. replace (Rltb _ _) with false by (symmetry; apply Rltb_false; auto).
  rewrite C, D. unfold vscale; cbn. f_equal; field; lra.
Qed.

Lemma cos_abs : forall x, cos (Rabs x) = cos x.
Proof. intros. unfold Rabs. destruct Rcase_abs; auto. apply cos_neg. Qed.
Lemma pitch_regular : forall m, rotation_matrix m -> tiny <= sqrt (m00 m * m00 m + m10 m * m10 m) -> Rabs (snd (fst (GetRPY m))) <= PI / 2 - tiny.
Proof.
  intros m RM T. set (c := sqrt _) in *.
  assert (P : snd (fst (GetRPY m)) = atan2 (- m20 m) c) by (unfold GetRPY; destruct (Rltb _ _); reflexivity).
  rewrite P. destruct (rows_cols m RM) as (_ & C0 & _).
  assert (CC : c * c = m00 m * m00 m + m10 m * m10 m) by (apply sqrt_sqrt; nra).
  destruct (polar1 (- m20 m) c) as [K _]; [lra|].
  pose proof (atan2_bound (- m20 m) c) as B. set (a := atan2 (- m20 m) c) in *.
  assert (T0 : 0 < tiny) by (unfold tiny; lra). assert (T1 : tiny < 1) by (unfold tiny; lra). pose proof PI2_1 as P2.
  destruct (Rle_dec (Rabs a) (PI / 2 - tiny)) as [|N]; auto. exfalso.
  assert (AB : Rabs a <= PI) by (unfold Rabs; destruct Rcase_abs; lra).
  assert (L : cos (Rabs a) < cos (PI / 2 - tiny)) by (apply cos_decreasing_1; lra).
  rewrite cos_abs, K, cos_shift in L. pose proof (sin_abs_le tiny) as SA. rewrite (Rabs_pos_eq tiny) in SA by lra.
  pose proof (Rle_abs (sin tiny)). lra.
Qed.
Lemma zyz_first : forall a b g, - PI < a <= PI -> 0 < b < PI -> Rabs (cos b) <= 1 - tiny ->
  fst (fst (GetEulerZYZ (mm (RotZ a) (mm (RotY b) (RotZ g))))) = a.
Proof.
  intros a b g A B T. unfold GetEulerZYZ.
  replace (m22 (mm (RotZ a) (mm (RotY b) (RotZ g)))) with (cos b) by (unfold mm, RotZ, RotY; cbn; ring).
  replace (Rltb _ _) with false by (symmetry; apply Rltb_false; auto). cbn [fst].
  replace (m12 (mm (RotZ a) (mm (RotY b) (RotZ g)))) with (sin b * sin a) by (unfold mm, RotZ, RotY; cbn; ring).
  replace (m02 (mm (RotZ a) (mm (RotY b) (RotZ g)))) with (sin b * cos a) by (unfold mm, RotZ, RotY; cbn; ring).
  apply atan2_unique; auto. apply sin_gt_0; lra.
Qed.

Lemma dec_or_means : forall o u p r, writable o p r -> means o u p (dec_or o u r) (rot_of r).
Proof.
  intros o u p r W. destruct o; cbn [means dec_or vlist app writable] in *.
  - rewrite r2d. destruct (normalize r) as [a b c] eqn:E. cbn [vx vy vz]. rewrite <- E, Rot_normalize. reflexivity.
  - rewrite !r2d. destruct r; reflexivity.
  - rewrite !r2d. pose proof (rot_of_rot r) as RR. unfold rot_of in *.
    assert (X : let '(a, b, c) := GetRPY (Rot r (norm r)) in RPY a b c = Rot r (norm r)).
    { destruct W as [W|W]; [apply GetRPY_generic, pitch_regular; auto|]. apply GetRPY_vertical; auto. unfold Rabs in W; destruct Rcase_abs in W; [right|left]; lra. }
    destruct (GetRPY _) as [[a b] c]. cbn [fst snd]. symmetry. exact X.
  - destruct W as (b & g & B & T & EM). rewrite !r2d. pose proof (rot_of_rot r) as RR.
    pose proof (zyz_first (atan2 (vy p) (vx p)) b g (atan2_bound _ _) B T) as A. rewrite <- EM in A. unfold rot_of in *.
    assert (X : let '(a, b, c) := GetEulerZYZ (Rot r (norm r)) in EulerZYZ a b c = Rot r (norm r)).
    { apply GetZYZ_generic; auto. rewrite EM. replace (m22 _) with (cos b) by (unfold mm, RotZ, RotY; cbn; ring). auto. }
    destruct (GetEulerZYZ _) as [[a' b'] c']. cbn [fst snd] in *. rewrite <- A. symmetry. exact X.
  - rewrite !r2d. pose proof (rot_of_rot r) as RR. unfold rot_of in *.
    assert (X : let '(a, b, c) := GetEulerZYZ (Rot r (norm r)) in EulerZYZ a b c = Rot r (norm r)).
    { destruct W as [W|W]; [apply GetZYZ_generic; auto|]. apply GetZYZ_vertical; auto. unfold Rabs in W; destruct Rcase_abs in W; [right|left]; lra. }
    destruct (GetEulerZYZ _) as [[a b] c]. cbn [fst snd]. symmetry. exact X.
  - rewrite !r2d. destruct r as [x y z]. cbn [vx vy vz] in *. destruct W as [Z [W|W]]; subst z.
    + inversion W; subst x y. unfold rot_of. replace (norm (V 0 0 0)) with 0; [|symmetry; unfold norm; change (V 0 0 0) with vzero; rewrite dot_zero_l; apply sqrt_0].
      unfold Rot. rewrite !Rot2_zero. reflexivity.
    + rewrite polar_axis by auto. reflexivity.
  - exact W.
Qed.
Lemma dec_pos_means : forall c l, writable_pos c (V (nth 0 l 0) (nth 1 l 0) (nth 2 l 0)) ->
  means_pos c (dec_pos c l) (V (nth 0 l 0) (nth 1 l 0) (nth 2 l 0)).
Proof. intros c l W. destruct c; cbn in *; auto. Qed.

(** ** Encoding *)
Lemma enc_means : forall c o u p lp lo m tl, pose_supported c o = true -> means_pos c lp p -> means o u p lo m ->
  regular_log m \/ o = AXIS_ANGLE_SCALED ->
  pos_in c (lp ++ lo ++ tl) = vlist p /\ rot_of (enc_vec c o u (lp ++ lo ++ tl)) = m.
Proof.
  intros c o u p lp lo m tl SUP MP MO REG. split.
  - destruct c; try discriminate SUP; cbn in MP.
    + destruct lp as [|a [|b [|d [|]]]]; try contradiction. subst p. reflexivity.
    + destruct lp; try contradiction. subst p. reflexivity.
  - assert (L : lp = match c with COORD_NONE => [] | _ => vlist p end).
    { destruct c; try discriminate SUP; cbn in MP.
      - destruct lp as [|a [|b [|d [|]]]]; try contradiction. subst p. reflexivity.
      - destruct lp; auto; contradiction. }
    subst lp. destruct p as [px py pz].
    assert (K : forall m', rotation_matrix m' -> m' = m -> o <> AXIS_ANGLE_SCALED -> rot_of (GetRot m') = m).
    { intros m' RM E NO. subst m'. apply rot_of_GetRot; auto. destruct REG; [auto|contradiction]. }
    destruct o; cbn [means] in MO.
    + destruct lo as [|a [|b [|d [|e [|]]]]]; try contradiction.
      unfold enc_vec. destruct c; try discriminate SUP; cbn; rewrite d2r; (apply K; [apply Rot2_rot, normalize_unit | symmetry; exact MO | discriminate]).
    + destruct lo as [|a [|b [|d [|]]]]; try contradiction.
      unfold enc_vec. destruct c; try discriminate SUP; cbn; rewrite !d2r; symmetry; exact MO.
    + destruct lo as [|a [|b [|d [|]]]]; try contradiction.
      unfold enc_vec. destruct c; try discriminate SUP; cbn; rewrite !d2r; (apply K; [apply RPY_rot | symmetry; exact MO | discriminate]).
    + destruct lo as [|a [|b [|]]]; try contradiction.
      unfold enc_vec. destruct c; try discriminate SUP; cbn; rewrite !d2r; (apply K; [apply ZYZ_rot | symmetry; exact MO | discriminate]).
    + destruct lo as [|a [|b [|d [|]]]]; try contradiction.
      unfold enc_vec. destruct c; try discriminate SUP; cbn; rewrite !d2r; (apply K; [apply ZYZ_rot | symmetry; exact MO | discriminate]).
    + destruct lo as [|a [|b [|]]]; try contradiction.
      unfold enc_vec. destruct c; try discriminate SUP; cbn; rewrite !d2r; (apply K; [apply Rot2_rot | symmetry; exact MO | discriminate]).
      all: unfold unit, dot; cbn; pose proof (sin2_cos2 (radians u b)) as T; unfold Rsqr in T; lra.
    + destruct lo; try contradiction. subst m. unfold enc_vec. apply rot_of_zero.
Qed.

Lemma means_length : forall c o u p lp lo m, means_pos c lp p -> means o u p lo m -> length (lp ++ lo) = expected_size c o.
Proof.
  intros c o u p lp lo m MP MO. rewrite app_length. unfold expected_size. f_equal.
  - destruct c; cbn in MP; destruct lp as [|a [|b [|d [|]]]]; try contradiction; reflexivity.
  - destruct o; cbn in MO; destruct lo as [|a [|b [|d [|e [|]]]]]; try contradiction; reflexivity.
Qed.

(** ** Results of running *)
Lemma runs_some : forall A (p : prog A) m Q, runs p m Q -> exists a m', p m = Some (a, m') /\ Q a m'.
Proof. intros A p m Q H. unfold runs in H. destruct (p m) as [[a m']|]; [eauto | contradiction]. Qed.

Theorem decode_means : forall (m : mem) xin xout c o u p r tl,
  m xin = vlist p ++ vlist r ++ tl -> writable_pos c p -> writable o p r ->
  exists m' lp lo, decodePose xin xout c o u m = Some (true, m') /\ m' xout = lp ++ lo /\
    means_pos c lp p /\ means o u p lo (rot_of r) /\ same_elsewhere m m' xout.
Proof.
  intros m xin xout c o u p r tl E WP W.
  assert (SUP : pos_supported c = true) by (destruct c; cbn in *; auto; contradiction).
  destruct p as [px py pz], r as [rx ry rz].
  destruct (runs_some _ _ _ _ (decode_run m xin xout c o u SUP ltac:(rewrite E; cbn; lia)
     ltac:(rewrite E; destruct o; cbn; auto; destruct W as [Z _]; cbn in Z; rewrite Z, Rabs_R0; pose proof kdl_eps_pos; lra)))
    as (b & m' & R1 & B & R2 & R3). subst b.
  exists m', (dec_pos c (m xin)), (dec_or o u (ori (m xin))).
  split; [auto|]. split; [exact R2|]. rewrite E. cbn [vlist vx vy vz app ori nth].
  split; [|split; [|auto]].
  - pose proof (dec_pos_means c (vlist (V px py pz) ++ vlist (V rx ry rz) ++ tl)) as K. cbn in K. apply K; auto.
  - apply dec_or_means; auto.
Qed.

Theorem encode_means : forall (m : mem) xin xout c o u p lp lo rm tl,
  pose_supported c o = true -> m xin = lp ++ lo ++ tl -> means_pos c lp p -> means o u p lo rm ->
  regular_log rm \/ o = AXIS_ANGLE_SCALED ->
  exists m' r, encodePose xin xout c o u m = Some (true, m') /\ m' xout = vlist p ++ vlist r /\ rot_of r = rm /\ same_elsewhere m m' xout.
Proof.
  intros m xin xout c o u p lp lo rm tl SUP E MP MO REG.
  assert (LEN : (expected_size c o <= length (m xin))%nat).
  { rewrite E, app_assoc, app_length, (means_length c o u p lp lo rm) by auto. lia. }
  destruct (runs_some _ _ _ _ (encode_run m xin xout c o u SUP LEN)) as (b & m' & R1 & B & R2 & R3). subst b.
  destruct (enc_means c o u p lp lo rm tl SUP MP MO REG) as [K1 K2].
  exists m', (enc_vec c o u (m xin)). repeat split; auto.
  - rewrite R2. unfold enc_out. rewrite E, K1. reflexivity.
  - rewrite E. auto.
Qed.

(** write, then read back: the same pose *)
Theorem decode_encode : forall (m : mem) x y z c o u p r,
  m x = vlist p ++ vlist r -> pose_supported c o = true -> writable_pos c p -> writable o p r ->
  regular_log (rot_of r) \/ o = AXIS_ANGLE_SCALED ->
  exists m1 m2, decodePose x y c o u m = Some (true, m1) /\ encodePose y z c o u m1 = Some (true, m2) /\
    vectorToFrame (m2 z) = F (rot_of r) p.
Proof.
  intros m x y z c o u p r E SUP WP W REG.
  destruct (decode_means m x y c o u p r []) as (m1 & lp & lo & D1 & D2 & D3 & D4 & _); auto.
  destruct (encode_means m1 y z c o u p lp lo (rot_of r) []) as (m2 & r' & E1 & E2 & E3 & _); auto; [rewrite app_nil_r; auto|].
  exists m1, m2. repeat split; auto. rewrite E2. destruct p as [p0 p1 p2], r' as [r0 r1 r2]. cbn [vlist app vectorToFrame vx vy vz]. rewrite <- E3. reflexivity.
Qed.

(** ** Refusals *)
Ltac go3 := first [go1 | match goal with |- runs (grow _ _) _ _ => apply runs_grow end].
Lemma encode_short : forall (m : mem) xin xout c o u, (length (m xin) < expected_size c o)%nat -> encodePose xin xout c o u m = Some (false, m).
Proof.
  intros. unfold encodePose, checkVectorSize, bind, vsize, ret.
  replace (Nat.leb (expected_size c o) (length (m xin))) with false by (symmetry; apply Nat.leb_gt; auto). reflexivity.
Qed.
Lemma decode_short : forall (m : mem) xin xout c o u, (length (m xin) < 6)%nat -> decodePose xin xout c o u m = Some (false, m).
Proof.
  intros. unfold decodePose, checkVectorSize, bind, vsize, ret. cbn [expected_size Nat.add].
  replace (Nat.leb 6 (length (m xin))) with false by (symmetry; apply Nat.leb_gt; auto). reflexivity.
Qed.
Lemma encode_vel_short : forall (m : mem) x xin xout c o u, (length (m xin) < expected_size c o)%nat -> encodeVelocity x xin xout c o u m = Some (false, m).
Proof.
  intros. unfold encodeVelocity, checkVectorSize, bind, vsize, ret.
  replace (Nat.leb (expected_size c o) (length (m xin))) with false by (symmetry; apply Nat.leb_gt; auto). reflexivity.
Qed.
Lemma decode_vel_short : forall (m : mem) x xin xout c o u, (length (m xin) < 6)%nat -> decodeVelocity x xin xout c o u m = Some (false, m).
Proof.
  intros. unfold decodeVelocity, checkVectorSize, bind, vsize, ret. cbn [expected_size Nat.add].
  replace (Nat.leb 6 (length (m xin))) with false by (symmetry; apply Nat.leb_gt; auto). reflexivity.
Qed.

(** an index within bounds can be read and written, whatever the vectors are *)
Lemma runs_rd_any : forall r i m (Q : R -> mem -> Prop), (i < length (m r))%nat -> (forall x, Q x m) -> runs (rd r i) m Q.
Proof.
  intros r i m Q L H. unfold runs, rd. destruct (nth_error (m r) i) eqn:E; auto. apply nth_error_None in E. lia.
Qed.
Lemma write_some : forall l i y, (i < length l)%nat -> exists l', write l i y = Some l' /\ length l' = length l.
Proof.
  induction l; intros i y L; cbn in L; [lia|]. destruct i; cbn; [eexists; split; reflexivity|].
  destruct (IHl i y) as (l' & E & EL); [lia|]. rewrite E. eexists; split; [reflexivity|]. cbn. auto.
Qed.
Lemma runs_wr_any : forall r i y m (Q : Datatypes.unit -> mem -> Prop), (i < length (m r))%nat ->
  (forall l, length l = length (m r) -> Q tt (set_vec m r l)) -> runs (wr r i y) m Q.
Proof.
  intros r i y m Q L H. unfold runs, wr. destruct (write_some (m r) i y L) as (l' & E & EL). rewrite E. auto.
Qed.
Lemma resized_length : forall l n, length (resized l n) = n.
Proof. intros. unfold resized. rewrite app_length, repeat_length. destruct (le_lt_dec n (length l)); [rewrite firstn_length_le; lia | rewrite firstn_all2; lia]. Qed.
Lemma runs_rsz_any : forall r n m (Q : Datatypes.unit -> mem -> Prop), (forall l, length l = n -> Q tt (set_vec m r l)) -> runs (rsz r n) m Q.
Proof. intros. apply runs_rsz. apply H, resized_length. Qed.
Lemma same_trans : forall m r l l', same_elsewhere m (set_vec (set_vec m r l) r l') r.
Proof. intros. rewrite set_set. apply same_set. Qed.
Lemma set_length : forall m r l r', (length (set_vec m r l r') = if Nat.eqb r' r then length l else length (m r'))%nat.
Proof. intros. unfold set_vec. destruct (Nat.eqb r' r); auto. Qed.

Ltac size_goal :=
  repeat rewrite set_length; repeat match goal with |- context [Nat.eqb ?a ?b] => let E := fresh in destruct (Nat.eqb_spec a b) as [E|E]; [rewrite ?E in *; clear E | try congruence] end;
  try match goal with H : (expected_size _ _ <= _)%nat |- _ => cbn in H end; lia.
Ltac go4 :=
  match goal with
  | |- runs (bind _ _) _ _ => apply runs_bind
  | |- runs (ret _) _ _ => apply runs_ret
  | |- runs (vsize _) _ _ => apply runs_size
  | |- runs (rd _ _) _ _ => apply runs_rd_any; [size_goal | intro; cbv beta]
  | |- runs (wr _ _ _) _ _ => let l := fresh "l" in let L := fresh "L" in
        apply runs_wr_any; [size_goal | intros l L; rewrite ?set_length, ?Nat.eqb_refl in L; cbv beta iota in L; cbv beta; rewrite ?set_set]
  | |- runs (rsz _ _) _ _ => let l := fresh "l" in let L := fresh "L" in
        apply runs_rsz_any; intros l L; cbv beta; rewrite ?set_set
  | |- runs (match ?e with _ => _ end) _ _ => let E := fresh "E" in destruct e as [[? ?] ?] eqn:E
  end.

Lemma sized_dec : forall (m : mem) x n, {(n <= length (m x))%nat} + {(length (m x) < n)%nat}.
Proof. intros. apply le_lt_dec. Qed.

Theorem encode_refuses : forall (m : mem) xin xout c o u, pose_supported c o = false ->
  runs (encodePose xin xout c o u) m (fun b m' => b = false /\ same_elsewhere m m' xout).
Proof.
  intros m xin xout c o u SUP. destruct (sized_dec m xin (expected_size c o)) as [LEN|LEN].
  2:{ unfold runs. rewrite encode_short by auto. split; auto. intros r H; auto. }
  unfold encodePose, checkVectorSize, encode_coord, put3.
  go1; go1; go1; go1. replace (Nat.leb _ _) with true by (symmetry; apply Nat.leb_le; auto). cbn [negb].
  go4; go4; go4; go4.
  destruct c, o; try discriminate SUP; cbn [offset Nat.add].
  all: repeat go4.
  all: split; [reflexivity | apply same_set].
Qed.
Lemma runs_if : forall A (b : bool) (p q : prog A) m Q, runs p m Q -> runs q m Q -> runs (if b then p else q) m Q.
Proof. intros. destruct b; auto. Qed.
Theorem decode_refuses : forall (m : mem) xin xout c o u, pos_supported c = false \/ ~ polar_ok o (m xin) ->
  runs (decodePose xin xout c o u) m (fun b m' => b = false /\ same_elsewhere m m' xout).
Proof.
  intros m xin xout c o u SUP. destruct (sized_dec m xin 6) as [LEN|LEN].
  2:{ unfold runs. rewrite decode_short by auto. split; auto. intros r H; auto. }
  unfold decodePose, checkVectorSize, decode_coord, grow.
  go1; go1; go1; go1. replace (Nat.leb _ _) with true by (symmetry; apply Nat.leb_le; auto). cbn [negb].
  destruct SUP as [SUP|SUP].
  - destruct c, o; try discriminate SUP; cbn [offset Nat.add].
    all: repeat first [go4 | match goal with |- runs (if _ then _ else _) _ _ => apply runs_if end].
    all: split; [reflexivity | first [apply same_set | intros r H; reflexivity]].
  - destruct o; cbn [polar_ok] in SUP; try tauto. go1. eapply runs_rd; [apply (nth_error_nth' _ 0); lia|]. cbv beta.
    replace (Rltb _ _) with true by (symmetry; apply Rltb_true; lra). go1. split; auto. intros r H; auto.
Qed.
Theorem encode_vel_refuses : forall (m : mem) x vin vout c o u, velocity_supported c o = false -> (enc_pose_size c o <= length (m x))%nat ->
  runs (encodeVelocity x vin vout c o u) m (fun b m' => b = false /\ same_elsewhere m m' vout).
Proof.
  intros m x xin xout c o u SUP LENX. destruct (sized_dec m xin (expected_size c o)) as [LEN|LEN].
  2:{ unfold runs. rewrite encode_vel_short by auto. split; auto. intros r H; auto. }
  unfold encodeVelocity, checkVectorSize, encode_coord, put3.
  go1; go1; go1; go1. replace (Nat.leb _ _) with true by (symmetry; apply Nat.leb_le; auto). cbn [negb].
  go4; go4; go4; go4.
  destruct c, o; try discriminate SUP; cbn [offset Nat.add enc_pose_size expected_size] in *.
  all: repeat go4.
  all: split; [reflexivity | apply same_set].
Qed.
Theorem decode_vel_refuses : forall (m : mem) x vin vout c o u, velocity_supported c o = false -> (dec_pose_size o <= length (m x))%nat ->
  runs (decodeVelocity x vin vout c o u) m (fun b m' => b = false /\ same_elsewhere m m' vout).
Proof.
  intros m x xin xout c o u SUP LENX. destruct (sized_dec m xin 6) as [LEN|LEN].
  2:{ unfold runs. rewrite decode_vel_short by auto. split; auto. intros r H; auto. }
  unfold decodeVelocity, checkVectorSize, decode_coord, grow.
  go1; go1; go1; go1. replace (Nat.leb _ _) with true by (symmetry; apply Nat.leb_le; auto). cbn [negb].
  destruct c, o; try discriminate SUP; cbn [offset Nat.add dec_pose_size] in *.
  all: repeat go4.
  all: split; [reflexivity | first [apply same_set | intros r H; reflexivity]].
Qed.
