(** Proofs about the representation codecs: what the programs compute. *)
From Coq Require Import Reals List Bool Arith Lia Lra.
From Verif Require Import Kdl KdlFacts Trig TrigFacts KdlRot KdlRotFacts KinRep KinRepSpec.
Import ListNotations.
Open Scope R_scope.
Local Notation S := Datatypes.S.

Lemma resized_max : forall l n, resized l (Nat.max n (length l)) = l ++ repeat 0 (n - length l).
Proof.
  intros. unfold resized. rewrite firstn_all2 by lia. f_equal. f_equal. lia.
Qed.
Lemma at_least : forall k (l : list R), (k <= length l)%nat -> exists l1 l2, l = l1 ++ l2 /\ length l1 = k.
Proof. intros k l H. exists (firstn k l), (skipn k l). split; [symmetry; apply firstn_skipn | apply firstn_length_le; auto]. Qed.
Lemma grown_length : forall (l : list R) n, (n <= length (l ++ repeat 0%R (n - length l)))%nat.
Proof. intros. rewrite app_length, repeat_length. lia. Qed.

Definition pos_in (c : coordinate_system) (l : list R) : list R :=
  match c with COORD_NONE => [0; 0; 0] | _ => [nth 0 l 0; nth 1 l 0; nth 2 l 0] end.
Definition enc_vec (c : coordinate_system) (o : orientation_system) (u : angular_units) (l : list R) : vec :=
  let a i := nth (i + offset c)%nat l 0 in
  let d i := degToRadHelper u (a i) in
  match o with
  | AXIS_ANGLE => GetRot (Rot (V (a 0) (a 1) (a 2))%nat (d 3%nat))
  | AXIS_ANGLE_SCALED => V (d 0%nat) (d 1%nat) (d 2%nat)
  | O_RPY => GetRot (RPY (d 0%nat) (d 1%nat) (d 2%nat))
  | EULER_YZ => GetRot (EulerZYZ (atan2 (nth 1 l 0) (nth 0 l 0)) (d 0%nat) (d 1%nat))
  | EULER_ZYZ => GetRot (EulerZYZ (d 0%nat) (d 1%nat) (d 2%nat))
  | POLAR_AZIMUTH => GetRot (Rot2 (V (- sin (d 1%nat)) (cos (d 1%nat)) 0) (d 0%nat))
  | ORIENT_NONE => vzero
  end.
Definition enc_out c o u l : list R := pos_in c l ++ vlist (enc_vec c o u l).

Arguments IZR : simpl never.
Local Opaque GetRot RPY EulerZYZ Rot Rot2 atan2 degToRadHelper radToDegHelper norm normalize GetRPY GetEulerZYZ kdl_eps Rltb Rabs mv mT rpy_rates sin cos Ropp.

(** split a list into at least k explicit elements, given a lower bound of its length *)
Ltac explicit l H :=
  match type of H with
  | (O <= _)%nat => idtac
  | (S _ <= length l)%nat => let x := fresh "x" in let l' := fresh "l" in
      destruct l as [|x l']; [cbn in H; exfalso; lia | cbn [length] in H; apply le_S_n in H; explicit l' H]
  end.

(** ** Running programs *)
Definition runs {A} (p : prog A) (m : mem) (Q : A -> mem -> Prop) : Prop :=
  match p m with Some (a, m') => Q a m' | None => False end.
Lemma runs_bind : forall A B (p : prog A) (f : A -> prog B) m Q,
  runs p m (fun a m' => runs (f a) m' Q) -> runs (bind p f) m Q.
Proof. intros. unfold runs, bind in *. destruct (p m) as [[a m']|]; auto. Qed.
Lemma runs_ret : forall A (a : A) m (Q : A -> mem -> Prop), Q a m -> runs (ret a) m Q.
Proof. auto. Qed.
Lemma runs_size : forall r m (Q : nat -> mem -> Prop), Q (length (m r)) m -> runs (vsize r) m Q.
Proof. auto. Qed.
Lemma runs_rd : forall r i m x (Q : R -> mem -> Prop), nth_error (m r) i = Some x -> Q x m -> runs (rd r i) m Q.
Proof. intros. unfold runs, rd. rewrite H. auto. Qed.
Lemma runs_wr : forall r i y m l (Q : Datatypes.unit -> mem -> Prop), write (m r) i y = Some l -> Q tt (set_vec m r l) -> runs (wr r i y) m Q.
Proof. intros. unfold runs, wr. rewrite H. auto. Qed.
Lemma runs_rsz : forall r n m (Q : Datatypes.unit -> mem -> Prop), Q tt (set_vec m r (resized (m r) n)) -> runs (rsz r n) m Q.
Proof. auto. Qed.
Lemma set_set : forall m r a b, set_vec (set_vec m r a) r b = set_vec m r b.
Proof. intros. apply FunctionalExtensionality.functional_extensionality. intro r'. unfold set_vec. destruct (Nat.eqb r' r); auto. Qed.
Lemma get_set : forall m r a, set_vec m r a r = a.
Proof. intros. unfold set_vec. rewrite Nat.eqb_refl. auto. Qed.
Lemma get_other : forall m r a r', r' <> r -> set_vec m r a r' = m r'.
Proof. intros. unfold set_vec. replace (Nat.eqb r' r) with false; auto. symmetry. apply Nat.eqb_neq. auto. Qed.

Ltac lookup := rewrite ?set_set, ?get_set; repeat (rewrite get_other by assumption).
Ltac go1 :=
  match goal with
  | |- runs (bind _ _) _ _ => apply runs_bind
  | |- runs (if _ then _ else _) _ _ => idtac
  | |- runs (ret _) _ _ => apply runs_ret
  | |- runs (vsize _) _ _ => apply runs_size; lookup
  | |- runs (rd _ _) _ _ => eapply runs_rd; [lookup; first [reflexivity | match goal with E : ?m ?x = _ |- nth_error (?m ?x) _ = _ => rewrite E; reflexivity end] | cbv beta]
  | |- runs (wr _ _ _) _ _ => eapply runs_wr; [lookup; reflexivity | cbv beta; lookup]
  | |- runs (rsz _ _) _ _ => apply runs_rsz; cbv beta; lookup
  end.

Lemma same_set : forall m r l, same_elsewhere m (set_vec m r l) r.
Proof. intros m r l r' H. apply get_other; auto. Qed.

(** make the first elements of [l ++ padding] explicit *)
Ltac pad_tail BIG :=
  cbn [app length Nat.sub] in *;
  match goal with |- context [(?t ++ repeat 0 ?n)] =>
    let T := fresh "T" in set (T := t ++ repeat 0 n) in *; clearbody T end;
  cbn [length] in BIG; repeat apply le_S_n in BIG;
  match type of BIG with (O <= _)%nat => idtac | (_ <= length ?t)%nat => explicit t BIG end.

Lemma encode_run_alias : forall (m : mem) x c o u, pose_supported c o = true -> (expected_size c o <= length (m x))%nat ->
  runs (encodePose x x c o u) m (fun b m' => b = true /\ m' x = enc_out c o u (m x) /\ same_elsewhere m m' x).
Proof.
  intros m x c o u SUP LEN. unfold encodePose, checkVectorSize, encode_coord, put3, enc_out, enc_vec.
  go1; go1; go1; go1. replace (Nat.leb _ _) with true by (symmetry; apply Nat.leb_le; auto). cbn [negb].
  go1; go1; go1; go1. rewrite resized_max.
  remember (m x) as l eqn:EL.
  destruct c; try discriminate SUP; destruct o; try discriminate SUP; cbn [expected_size Nat.add offset pos_in] in *.
  all: pose proof (grown_length l 6) as BIG; explicit l LEN; pad_tail BIG.
  all: repeat go1.
  all: split; [reflexivity|]; split; [lookup; reflexivity | apply same_set].
Qed.

Lemma encode_run_other : forall (m : mem) xin x c o u, xin <> x -> pose_supported c o = true -> (expected_size c o <= length (m xin))%nat ->
  runs (encodePose xin x c o u) m (fun b m' => b = true /\ m' x = enc_out c o u (m xin) /\ same_elsewhere m m' x).
Proof.
  intros m xin x c o u NE SUP LEN. unfold encodePose, checkVectorSize, encode_coord, put3, enc_out, enc_vec.
  go1; go1; go1; go1. replace (Nat.leb _ _) with true by (symmetry; apply Nat.leb_le; auto). cbn [negb].
  go1; go1; go1; go1. rewrite resized_max.
  pose proof (grown_length (m x) 6) as BIG. set (T := m x ++ repeat 0 (6 - length (m x))) in *. clearbody T. explicit T BIG.
  remember (m xin) as l eqn:EL. symmetry in EL.
  destruct c; try discriminate SUP; destruct o; try discriminate SUP; cbn [expected_size Nat.add offset pos_in] in *.
  all: explicit l LEN.
  all: repeat go1.
  all: split; [reflexivity|]; split; [lookup; reflexivity | apply same_set].
Qed.
Lemma encode_run : forall (m : mem) xin x c o u, pose_supported c o = true -> (expected_size c o <= length (m xin))%nat ->
  runs (encodePose xin x c o u) m (fun b m' => b = true /\ m' x = enc_out c o u (m xin) /\ same_elsewhere m m' x).
Proof. intros. destruct (Nat.eq_dec xin x); [subst; apply encode_run_alias | apply encode_run_other]; auto. Qed.

Definition ori (l : list R) : vec := V (nth 3 l 0) (nth 4 l 0) (nth 5 l 0).
Definition dec_or (o : orientation_system) (u : angular_units) (r : vec) : list R :=
  let d := radToDegHelper u in
  match o with
  | AXIS_ANGLE => vlist (normalize r) ++ [d (norm r)]
  | AXIS_ANGLE_SCALED => [d (vx r); d (vy r); d (vz r)]
  | O_RPY => let a := GetRPY (Rot r (norm r)) in [d (fst (fst a)); d (snd (fst a)); d (snd a)]
  | EULER_YZ => let a := GetEulerZYZ (Rot r (norm r)) in [d (snd (fst a)); d (snd a)]
  | EULER_ZYZ => let a := GetEulerZYZ (Rot r (norm r)) in [d (fst (fst a)); d (snd (fst a)); d (snd a)]
  | POLAR_AZIMUTH => [d (norm r); d (atan2 (- vx r) (vy r))]
  | ORIENT_NONE => []
  end.
Definition dec_pos (c : coordinate_system) (l : list R) : list R :=
  match c with COORD_NONE => [] | _ => [nth 0 l 0; nth 1 l 0; nth 2 l 0] end.
Definition dec_out c o u l := dec_pos c l ++ dec_or o u (ori l).

Lemma runs_grow : forall r n m (Q : Datatypes.unit -> mem -> Prop),
  Q tt (set_vec m r (m r ++ repeat 0 (n - length (m r)))) -> runs (grow r n) m Q.
Proof. intros. unfold grow. go1; go1; go1. rewrite resized_max. auto. Qed.

Ltac go2 :=
  match goal with
  | |- runs (if ?b then _ else _) _ _ => replace b with false by (symmetry; apply Rltb_false; assumption); cbv beta iota
  | |- runs (match ?e with _ => _ end) _ _ => let E := fresh "E" in destruct e as [[? ?] ?] eqn:E; rewrite ?E; cbn [fst snd]
  | |- _ => go1
  end.
Ltac grow_alias EL :=
  match goal with |- runs (grow _ ?n) _ _ =>
    apply runs_grow; rewrite EL;
    match goal with |- context [repeat 0 (n - length ?l)] =>
      let BIG := fresh "BIG" in pose proof (grown_length l n) as BIG; pad_tail BIG end end.
Ltac grow_other :=
  match goal with |- runs (grow ?x ?n) ?m _ =>
    apply runs_grow; let BIG := fresh "BIG" in let T := fresh "T" in pose proof (grown_length (m x) n) as BIG;
    set (T := m x ++ repeat 0 (n - length (m x))) in *; clearbody T; explicit T BIG end.

Lemma resized_3 : forall l, exists a b c, resized l 3 = [a; b; c].
Proof. intros [|a [|b [|c l]]]; repeat eexists. Qed.
Ltac short_other :=
  match goal with m : mem |- context [resized (?m' ?x) 3] => constr_eq m m';
    let a := fresh "s" in let b := fresh "s" in let c := fresh "s" in let E := fresh "E" in
    destruct (resized_3 (m x)) as (a & b & c & E); rewrite E end.

Ltac res_alias EL := match type of EL with ?mx = _ => match goal with |- context [resized mx _] => rewrite EL end end.
Ltac expl_mem H :=
  match type of H with (S _ <= length (?m ?x))%nat =>
    let k := fresh "k" in let E := fresh "EK" in remember (m x) as k eqn:E; symmetry in E; explicit k H end.

Lemma decode_run_alias : forall (m : mem) x c o u, pos_supported c = true -> (6 <= length (m x))%nat -> polar_ok o (m x) ->
  runs (decodePose x x c o u) m (fun b m' => b = true /\ m' x = dec_out c o u (m x) /\ same_elsewhere m m' x).
Proof.
  intros m x c o u SUP LEN POL. unfold decodePose, checkVectorSize, decode_coord, dec_out, dec_or, ori.
  go1; go1; go1; go1. replace (Nat.leb _ _) with true by (symmetry; apply Nat.leb_le; auto). cbn [negb].
  remember (m x) as l eqn:EL. symmetry in EL.
  destruct c; try discriminate SUP; destruct o; cbn [Nat.add offset dec_pos] in *.
  all: explicit l LEN; cbn [nth ori polar_ok vx vy vz] in *.
  all: repeat first [go2 | grow_alias EL | res_alias EL].
  all: split; [reflexivity|]; split; [lookup; try rewrite EL; reflexivity | apply same_set].
Qed.
Lemma decode_run_other : forall (m : mem) xin x c o u, xin <> x -> pos_supported c = true -> (6 <= length (m xin))%nat -> polar_ok o (m xin) ->
  runs (decodePose xin x c o u) m (fun b m' => b = true /\ m' x = dec_out c o u (m xin) /\ same_elsewhere m m' x).
Proof.
  intros m xin x c o u NE SUP LEN POL. unfold decodePose, checkVectorSize, decode_coord, dec_out, dec_or, ori.
  go1; go1; go1; go1. replace (Nat.leb _ _) with true by (symmetry; apply Nat.leb_le; auto). cbn [negb].
  remember (m xin) as l eqn:EL. symmetry in EL.
  destruct c; try discriminate SUP; destruct o; cbn [Nat.add offset dec_pos] in *.
  all: explicit l LEN; cbn [nth ori polar_ok vx vy vz] in *.
  all: repeat first [go2 | grow_other | short_other].
  all: split; [reflexivity|]; split; [lookup; try reflexivity | apply same_set].
Qed.
Lemma decode_run : forall (m : mem) xin x c o u, pos_supported c = true -> (6 <= length (m xin))%nat -> polar_ok o (m xin) ->
  runs (decodePose xin x c o u) m (fun b m' => b = true /\ m' x = dec_out c o u (m xin) /\ same_elsewhere m m' x).
Proof. intros. destruct (Nat.eq_dec xin x); [subst; apply decode_run_alias | apply decode_run_other]; auto. Qed.

(** ** Velocities *)
Definition enc_vel (c : coordinate_system) (o : orientation_system) (u : angular_units) (x l : list R) : vec :=
  let a i := nth (i + offset c)%nat l 0 in
  let d i := degToRadHelper u (a i) in
  match o with
  | AXIS_ANGLE => GetRot (Rot (V (a 0) (a 1) (a 2))%nat (d 3%nat))
  | AXIS_ANGLE_SCALED => V (d 0%nat) (d 1%nat) (d 2%nat)
  | O_RPY => mv (rpy_rates (degToRadHelper u (nth (1 + offset c)%nat x 0)) (degToRadHelper u (nth (2 + offset c)%nat x 0)))
                (V (d 0%nat) (d 1%nat) (d 2%nat))
  | _ => vzero
  end.
Definition dec_vel (o : orientation_system) (u : angular_units) (x : list R) (r : vec) : list R :=
  let d := radToDegHelper u in
  match o with
  | AXIS_ANGLE => vlist (normalize r) ++ [d (norm r)]
  | AXIS_ANGLE_SCALED => [d (vx r); d (vy r); d (vz r)]
  | O_RPY => let w := mv (mT (rpy_rates (nth 4 x 0) (nth 5 x 0))) r in [d (vx w); d (vy w); d (vz w)]
  | _ => []
  end.

Lemma encode_vel_alias : forall (m : mem) x v c o u, x <> v -> velocity_supported c o = true ->
  (expected_size c o <= length (m v))%nat -> (enc_pose_size c o <= length (m x))%nat ->
  runs (encodeVelocity x v v c o u) m (fun b m' => b = true /\ m' v = pos_in c (m v) ++ vlist (enc_vel c o u (m x) (m v)) /\ same_elsewhere m m' v).
Proof.
  intros m x v c o u NE SUP LEN LENX. unfold encodeVelocity, checkVectorSize, encode_coord, put3, enc_vel.
  go1; go1; go1; go1. replace (Nat.leb _ _) with true by (symmetry; apply Nat.leb_le; auto). cbn [negb].
  go1; go1; go1; go1. rewrite resized_max.
  remember (m v) as l eqn:EL. symmetry in EL. remember (m x) as k eqn:EK. symmetry in EK.
  destruct c; try discriminate SUP; destruct o; try discriminate SUP; cbn [expected_size Nat.add offset pos_in enc_pose_size] in *.
  all: pose proof (grown_length l 6) as BIG; explicit k LENX; explicit l LEN; pad_tail BIG.
  all: repeat go1.
  all: split; [reflexivity|]; split; [lookup; reflexivity | apply same_set].
Qed.
Lemma encode_vel_other : forall (m : mem) x vin v c o u, x <> v -> vin <> v -> velocity_supported c o = true ->
  (expected_size c o <= length (m vin))%nat -> (enc_pose_size c o <= length (m x))%nat ->
  runs (encodeVelocity x vin v c o u) m (fun b m' => b = true /\ m' v = pos_in c (m vin) ++ vlist (enc_vel c o u (m x) (m vin)) /\ same_elsewhere m m' v).
Proof.
  intros m x vin v c o u NE NV SUP LEN LENX. unfold encodeVelocity, checkVectorSize, encode_coord, put3, enc_vel.
  go1; go1; go1; go1. replace (Nat.leb _ _) with true by (symmetry; apply Nat.leb_le; auto). cbn [negb].
  go1; go1; go1; go1. rewrite resized_max.
  pose proof (grown_length (m v) 6) as BIG. set (T := m v ++ repeat 0 (6 - length (m v))) in *. clearbody T. explicit T BIG.
  destruct c; try discriminate SUP; destruct o; try discriminate SUP; cbn [expected_size Nat.add offset pos_in enc_pose_size] in *.
  all: destruct (Nat.eq_dec x vin) as [EX|NX]; [subst x|].
  all: remember (m vin) as l eqn:EL; symmetry in EL; explicit l LEN.
  all: try expl_mem LENX.
  all: repeat go1.
  all: split; [reflexivity|]; split; [lookup; reflexivity | apply same_set].
Qed.
Lemma encode_vel_run : forall (m : mem) x vin v c o u, x <> v -> velocity_supported c o = true ->
  (expected_size c o <= length (m vin))%nat -> (enc_pose_size c o <= length (m x))%nat ->
  runs (encodeVelocity x vin v c o u) m (fun b m' => b = true /\ m' v = pos_in c (m vin) ++ vlist (enc_vel c o u (m x) (m vin)) /\ same_elsewhere m m' v).
Proof. intros. destruct (Nat.eq_dec vin v); [subst; apply encode_vel_alias | apply encode_vel_other]; auto. Qed.

Lemma decode_vel_alias : forall (m : mem) x v c o u, x <> v -> velocity_supported c o = true -> (6 <= length (m v))%nat -> (dec_pose_size o <= length (m x))%nat ->
  runs (decodeVelocity x v v c o u) m (fun b m' => b = true /\ m' v = dec_pos c (m v) ++ dec_vel o u (m x) (ori (m v)) /\ same_elsewhere m m' v).
Proof.
  intros m x' x c o u NE SUP LEN LENX. unfold decodeVelocity, checkVectorSize, decode_coord, dec_vel, ori.
  go1; go1; go1; go1. replace (Nat.leb _ _) with true by (symmetry; apply Nat.leb_le; auto). cbn [negb].
  remember (m x) as l eqn:EL. symmetry in EL. remember (m x') as k eqn:EK. symmetry in EK.
  destruct c; try discriminate SUP; destruct o; try discriminate SUP; cbn [Nat.add offset dec_pos dec_pose_size] in *.
  all: explicit k LENX; explicit l LEN; cbn [nth vx vy vz] in *.
  all: repeat first [go2 | grow_alias EL | res_alias EL].
  all: split; [reflexivity|]; split; [lookup; try rewrite EL; reflexivity | apply same_set].
Qed.
Lemma decode_vel_other : forall (m : mem) x vin v c o u, x <> v -> vin <> v -> velocity_supported c o = true -> (6 <= length (m vin))%nat -> (dec_pose_size o <= length (m x))%nat ->
  runs (decodeVelocity x vin v c o u) m (fun b m' => b = true /\ m' v = dec_pos c (m vin) ++ dec_vel o u (m x) (ori (m vin)) /\ same_elsewhere m m' v).
Proof.
  intros m x' xin x c o u NX NE SUP LEN LENX. unfold decodeVelocity, checkVectorSize, decode_coord, dec_vel, ori.
  go1; go1; go1; go1. replace (Nat.leb _ _) with true by (symmetry; apply Nat.leb_le; auto). cbn [negb].
  destruct c; try discriminate SUP; destruct o; try discriminate SUP; cbn [Nat.add offset dec_pos dec_pose_size] in *.
  all: destruct (Nat.eq_dec x' xin) as [EX|NXX]; [subst x'|].
  all: remember (m xin) as l eqn:EL; symmetry in EL; explicit l LEN.
  all: try expl_mem LENX.
  all: cbn [nth vx vy vz] in *.
  all: repeat first [go2 | grow_other | short_other].
  all: split; [reflexivity|]; split; [lookup; try reflexivity | apply same_set].
Qed.
Lemma decode_vel_run : forall (m : mem) x vin v c o u, x <> v -> velocity_supported c o = true -> (6 <= length (m vin))%nat -> (dec_pose_size o <= length (m x))%nat ->
  runs (decodeVelocity x vin v c o u) m (fun b m' => b = true /\ m' v = dec_pos c (m vin) ++ dec_vel o u (m x) (ori (m vin)) /\ same_elsewhere m m' v).
Proof. intros. destruct (Nat.eq_dec vin v); [subst; apply decode_vel_alias | apply decode_vel_other]; auto. Qed.
