(** Proofs about the configuration of the solvers. *)
From Coq Require Import Reals Lra Lia List Bool Arith ZArith String.
From Verif Require Import Kdl KdlFacts KdlRot KinRep KdlSolver Config ConfigSpec.
Import ListNotations.
Open Scope R_scope.
Local Notation S := Datatypes.S.
Local Notation length := List.length.

(** ** Frames *)
Lemma matrix_frame_spec : forall o h, matrix_at o h -> matrix_frame o = h.
Proof. intros o h H. destruct H; reflexivity. Qed.

Lemma dh_tail : forall a alpha d,
  fmul (shift ez d) (fmul (shift ex a) (turn ex alpha)) = F (RotX alpha) (V a 0 d).
Proof.
  intros. unfold turn, shift, fmul, ex, ez; cbn [fM fp]. change (V 1 0 0) with (V 1 0 0).
  rewrite <- RotX_Rot2, !mm_id_l, !mv_id. f_equal. apply vec_eq; cbn; ring.
Qed.
Lemma dh_spec : forall a alpha d x o,
  fmul (turn ez x) (dh_frame a alpha d o) =
  fmul (turn ez (x + o)) (fmul (shift ez d) (fmul (shift ex a) (turn ex alpha))).
Proof.
  intros. rewrite dh_tail. unfold turn, ez. rewrite <- !RotZ_Rot2.
  apply frame_eq; [apply mat_eq | apply vec_eq]; cbn -[cos sin]; rewrite ?sin_plus, ?cos_plus; ring.
Qed.

Lemma mk_segment_pose : forall j f x, joint_pose j 0 = fid -> segment_pose (mk_segment j f) x = fmul (joint_pose j x) f.
Proof. intros j f x H. unfold segment_pose, mk_segment; cbn. now rewrite H, finv_id, fmul_id_l. Qed.

Lemma none_pose : forall f x, segment_pose (mk_segment none_joint f) x = f.
Proof. intros. rewrite mk_segment_pose by reflexivity. apply fmul_id_l. Qed.

Lemma rot0 : forall t s, axis_joint t s = J t s 0 vzero vzero. Proof. reflexivity. Qed.

Lemma axis_pose0 : forall t s, t <> JRotAxis -> t <> JTransAxis -> joint_pose (axis_joint t s) 0 = fid.
Proof.
  intros t s H1 H2. unfold axis_joint, joint_pose; cbn [j_type j_scale j_offset].
  replace (s * 0 + 0) with 0 by ring.
  destruct t; try (exfalso; congruence); try reflexivity;
    cbn; unfold RotX, RotY, RotZ; rewrite ?cos_0, ?sin_0, ?Ropp_0; reflexivity.
Qed.

(** ** Joint types *)
Lemma neg_axis : forall a t, turn (vneg a) t = turn a (- t).
Proof. intros. unfold turn. now rewrite Rot2_opp_axis. Qed.

Lemma type_joint_spec : forall t m, In (t, m) motions ->
  exists j, type_joint t = Some j /\ is_fixed j = false /\ joint_pose j 0 = fid /\ forall x, joint_pose j x = m x.
Proof.
  intros t m H. cbn in H.
  repeat (destruct H as [H|H]; [inversion H; subst; clear H;
    eexists; split; [reflexivity|]; split; [reflexivity|]; split; [apply axis_pose0; discriminate|];
    intro x; rewrite ?neg_axis; unfold axis_joint, joint_pose, turn, shift, ftrans, vscale, vneg, ex, ey, ez; cbn;
    repeat match goal with |- context [1 * ?y + 0] => replace (1 * y + 0) with y by ring
                         | |- context [-1 * ?y + 0] => replace (-1 * y + 0) with (- y) by ring end;
    rewrite ?RotX_Rot2, ?RotY_Rot2, ?RotZ_Rot2; try reflexivity; f_equal; apply vec_eq; cbn; ring |]).
  contradiction.
Qed.

Lemma type_joint_none : forall t, ~ In t (map fst motions) -> type_joint t = None.
Proof.
  intros t H. unfold type_joint.
  repeat match goal with
  | |- (if ?b then _ else _) = None => destruct b eqn:E; [apply String.eqb_eq in E; subst; exfalso; apply H; cbn; tauto | clear E]
  end. reflexivity.
Qed.

Lemma type_joint_some : forall t j, type_joint t = Some j -> In t (map fst motions).
Proof.
  intros t j H. destruct (in_dec string_dec t (map fst motions)) as [I|I]; [exact I|].
  rewrite (type_joint_none _ I) in H. discriminate.
Qed.

Lemma in_motions : forall t, In t (map fst motions) -> exists m, In (t, m) motions.
Proof. intros t H. apply in_map_iff in H. destruct H as [[t' m] [E I]]. cbn in E; subst. eauto. Qed.

(** ** Links *)
Lemma link_segment_spec : forall g, described g ->
  exists b s, link_segment g = Some (Some (b, s)) /\ is_fixed (s_joint s) = false /\
    forall x, link_at g x (segment_pose s x).
Proof.
  intros [[[o d a al]|] xy] H.
  - eexists true, _. split; [reflexivity|]. split; [reflexivity|].
    intro x. rewrite mk_segment_pose by (apply axis_pose0; discriminate).
    replace (joint_pose (axis_joint JRotZ 1) x) with (turn ez x).
    2:{ unfold joint_pose, axis_joint, turn; cbn. replace (1 * x + 0) with x by ring. now rewrite RotZ_Rot2. }
    cbn. rewrite dh_spec. apply at_dh.
  - destruct H as [H|(a & b & c & t & E & I)]; [now elim H|]. cbn in E. subst xy.
    destruct (in_motions _ I) as [m Im]. destruct (type_joint_spec _ _ Im) as (j & Ej & Fj & Zj & Pj).
    unfold link_segment; cbn [lg_dh lg_xyz xl_type xl_x xl_y xl_z]. rewrite Ej. cbn.
    eexists false, _. split; [reflexivity|]. split; [exact Fj|].
    intro x. rewrite mk_segment_pose by exact Zj. rewrite Pj. apply at_xyz, Im.
Qed.

Lemma link_at_fun : forall g x f, link_at g x f -> forall f', link_at g x f' -> f = f'.
Proof.
  intros g x f H f' H'. destruct H.
  - inversion H'; subst. reflexivity.
  - inversion H' as [|? ? ? ? m' ? I]; subst.
    destruct (type_joint_spec _ _ H) as (j & Ej & _ & _ & Pj).
    destruct (type_joint_spec _ _ I) as (j' & Ej' & _ & _ & Pj').
    assert (j = j') by congruence. subst. now rewrite <- Pj, <- Pj'.
Qed.
Lemma links_at_fun : forall gs xs f, links_at gs xs f -> forall f', links_at gs xs f' -> f = f'.
Proof.
  intros gs xs f H. induction H; intros f2 H'; inversion H'; subst; [reflexivity|].
  f_equal; [eapply link_at_fun; eauto | auto].
Qed.

(** the chain of the segments of described links: as many moving joints as links *)
Lemma link_segments_spec : forall gs i, Forall described gs ->
  exists ss, link_segments i gs = Some ss /\ map (fun x => fst (fst x)) ss = seq i (length gs) /\
    Forall2 (fun g s => link_segment g = Some (Some (snd (fst s), snd s)) /\ is_fixed (s_joint (snd s)) = false /\ forall x, link_at g x (segment_pose (snd s) x)) gs ss.
Proof.
  induction gs as [|g gs IH]; intros i H; [exists []; repeat split; constructor|].
  inversion H as [|? ? Hg Hgs]; subst. destruct (IH (S i) Hgs) as (ss & E & Ei & F2).
  destruct (link_segment_spec g Hg) as (b & s & Es & Fx & P).
  exists ((i, b, s) :: ss). cbn [link_segments]. rewrite Es, E. split; [reflexivity|]. split; [cbn; now rewrite Ei|].
  constructor; [repeat split; auto|exact F2].
Qed.

Lemma chain_fk_links : forall gs ss, Forall2 (fun g (s : nat * bool * segment) => link_segment g = Some (Some (snd (fst s), snd s)) /\ is_fixed (s_joint (snd s)) = false /\ forall x, link_at g x (segment_pose (snd s) x)) gs ss ->
  forall xs acc c, length xs = length gs ->
  exists f, links_at gs xs f /\ chain_fk acc (map snd ss ++ c) xs = chain_fk (fmul acc f) c [].
Proof.
  induction 1 as [|g s gs ss (Es & Fx & P) F2 IH]; intros xs acc c L.
  - destruct xs; [|discriminate]. exists fid. split; [constructor|]. cbn. now rewrite fmul_id_r.
  - destruct xs as [|x xs]; [discriminate|]. injection L as L.
    destruct (IH xs (fmul acc (segment_pose (snd s) x)) c L) as (f & Lf & E).
    exists (fmul (segment_pose (snd s) x) f). split; [constructor; auto|].
    cbn [map app chain_fk]. rewrite Fx, E, fmul_assoc. reflexivity.
Qed.

Lemma nr_links : forall gs ss, Forall2 (fun g (s : nat * bool * segment) => link_segment g = Some (Some (snd (fst s), snd s)) /\ is_fixed (s_joint (snd s)) = false /\ forall x, link_at g x (segment_pose (snd s) x)) gs ss ->
  nr_of_joints (map snd ss) = length gs.
Proof.
  unfold nr_of_joints. induction 1 as [|g s gs ss (Es & Fx & P) F2 IH]; [reflexivity|].
  cbn. rewrite Fx. cbn. now rewrite IH.
Qed.

Lemma nr_app : forall a b, nr_of_joints (a ++ b) = (nr_of_joints a + nr_of_joints b)%nat.
Proof. intros. unfold nr_of_joints. now rewrite filter_app, app_length. Qed.

Lemma cfg_chain_spec : forall c n k, ch_numLinks c = Some (Z.of_nat n) -> Forall described (map (ch_link c) (seq 0 n)) ->
  cfg_chain c = Some k ->
  nr_of_joints k = n /\
  forall H0 HN xs, matrix_at (ch_H0 c) H0 -> matrix_at (ch_HN c) HN -> length xs = n ->
  exists f, links_at (map (ch_link c) (seq 0 n)) xs f /\ chain_fwd_kin k xs = Some (fmul H0 (fmul f HN)).
Proof.
  intros c n k En D E. unfold cfg_chain, ch_links in E. rewrite En, Nat2Z.id in E.
  destruct (link_segments_spec _ 0%nat D) as (ss & Es & _ & F2). rewrite Es in E.
  injection E as <-. pose proof (nr_links _ _ F2) as NL. rewrite map_length, seq_length in NL.
  split.
  - cbn [nr_of_joints]. change (?a :: ?b ++ ?c) with ([a] ++ b ++ c).
    rewrite !nr_app, NL. cbn. lia.
  - intros H0 HN xs M0 MN L. rewrite <- (matrix_frame_spec _ _ M0), <- (matrix_frame_spec _ _ MN).
    destruct (chain_fk_links _ _ F2 xs (matrix_frame (ch_H0 c)) [mk_segment none_joint (matrix_frame (ch_HN c))]) as (f & Lf & E).
    { now rewrite map_length, seq_length. }
    exists f. split; [exact Lf|]. unfold chain_fwd_kin. cbn [app chain_fk].
    change (is_fixed (s_joint (mk_segment none_joint (matrix_frame (ch_H0 c))))) with true. cbn iota.
    rewrite none_pose, fmul_id_l, E. cbn [chain_fk].
    change (is_fixed (s_joint (mk_segment none_joint (matrix_frame (ch_HN c))))) with true. cbn iota.
    now rewrite none_pose, fmul_assoc.
Qed.

Lemma kdl_open_chain : forall c sc k ik, kdl_open c sc = Some (k, ik) -> cfg_chain c = Some k.
Proof.
  intros c sc k ik H. unfold kdl_open in H. destruct (cfg_chain c) as [k'|]; [|discriminate].
  destruct (negb _); [discriminate|].
  match type of H with option_map _ ?x = _ => destruct x; [|discriminate] end.
  cbn in H. congruence.
Qed.

(** C86 *)
Lemma open_forward : forall c sc k ik n H0 HN, kdl_open c sc = Some (k, ik) ->
  ch_numLinks c = Some (Z.of_nat n) -> Forall described (map (ch_link c) (seq 0 n)) ->
  matrix_at (ch_H0 c) H0 -> matrix_at (ch_HN c) HN ->
  forall o i q, (n <= length q)%nat ->
  exists f, links_at (map (ch_link c) (seq 0 n)) (map degToRad (firstn n q)) f /\
    fwdKin (Sv k o i) q = Some (frameToVector (fmul H0 (fmul f HN))).
Proof.
  intros c sc k ik n H0 HN Ho En D M0 MN o i q L.
  destruct (cfg_chain_spec c n k En D (kdl_open_chain _ _ _ _ Ho)) as [N P].
  destruct (P H0 HN (map degToRad (firstn n q)) M0 MN) as (f & Lf & E).
  { rewrite map_length, firstn_length. lia. }
  exists f. split; [exact Lf|]. unfold fwdKin, joints_in; cbn [sv_chain]. rewrite N.
  destruct (Nat.leb n (length q)) eqn:B; [|apply Nat.leb_gt in B; lia]. now rewrite E.
Qed.

Lemma rotary_described : forall g, rotary g -> described g.
Proof.
  intros g [H|(a & b & c & t & E & I)]; [now left|right]. exists a, b, c, t. split; [exact E|].
  cbn in I |- *. intuition.
Qed.

Lemma deg_rad : forall v, degToRad v = v * PI / 180. Proof. intro. unfold degToRad. lra. Qed.

(** C87 *)
Lemma open_units : forall c sc k ik n H0 HN, kdl_open c sc = Some (k, ik) ->
  ch_numLinks c = Some (Z.of_nat n) -> Forall rotary (map (ch_link c) (seq 0 n)) ->
  matrix_at (ch_H0 c) H0 -> matrix_at (ch_HN c) HN ->
  forall o i q xs f, length q = n ->
  Forall2 (fun gv x => coordinate (fst gv) (snd gv) x) (combine (map (ch_link c) (seq 0 n)) q) xs ->
  links_at (map (ch_link c) (seq 0 n)) xs f ->
  fwdKin (Sv k o i) q = Some (frameToVector (fmul H0 (fmul f HN))).
Proof.
  intros c sc k ik n H0 HN Ho En Ro M0 MN o i q xs f L C Lf.
  assert (D : Forall described (map (ch_link c) (seq 0 n))).
  { eapply Forall_impl; [|exact Ro]. intros; now apply rotary_described. }
  destruct (open_forward c sc k ik n H0 HN Ho En D M0 MN o i q) as (f' & Lf' & E); [lia|].
  replace f with f'; [exact E|]. apply (links_at_fun _ _ _ Lf').
  replace (firstn n q) with q by (rewrite <- L; symmetry; apply firstn_all). replace (map degToRad q) with xs; [exact Lf|].
  clear - C Ro L. assert (L2 : length (map (ch_link c) (seq 0 n)) = length q) by (rewrite map_length, seq_length; auto).
  revert Ro C L2. generalize (map (ch_link c) (seq 0 n)) as gs. clear. revert xs.
  induction q as [|v q IH]; intros xs [|g gs] Ro C L; try discriminate; inversion C; subst; [reflexivity|].
  inversion Ro; subst. cbn. f_equal.
  - match goal with H : coordinate _ _ _ |- _ => inversion H; subst end; [symmetry; apply deg_rad|contradiction].
  - eapply IH; eauto.
Qed.

Definition rail : chain_cfg := Ch (Some 1%Z) None (fun _ => Lg None (Some (Xyz 0 0 0 "TransX"))) None.
Definition rail_solver : solver_cfg := Sc None None (Some "lma"%string) None None None None.
Definition rail_chain : chain := [mk_segment none_joint fid; mk_segment (axis_joint JTransX 1) (ftrans (V 0 0 0)); mk_segment none_joint fid].
Lemma rail_open : kdl_open rail rail_solver = Some (rail_chain, IkLma).
Proof. reflexivity. Qed.

Lemma rail_not_rotary : ~ rotary (Lg None (Some (Xyz 0 0 0 "TransX"))).
Proof.
  intros [H|(a & b & c & t & E & I)]; [now elim H|]. cbn in E. injection E as <- <- <- <-.
  cbn in I. repeat destruct I as [I|I]; try discriminate; contradiction.
Qed.
Lemma rail_described : described (Lg None (Some (Xyz 0 0 0 "TransX"))).
Proof. right. exists 0, 0, 0, "TransX"%string. split; [reflexivity|cbn; tauto]. Qed.

Lemma units_broken : exists c sc k ik n H0 HN q xs f, kdl_open c sc = Some (k, ik) /\
  ch_numLinks c = Some (Z.of_nat n) /\ Forall described (map (ch_link c) (seq 0 n)) /\
  matrix_at (ch_H0 c) H0 /\ matrix_at (ch_HN c) HN /\ length q = n /\
  Forall2 (fun gv x => coordinate (fst gv) (snd gv) x) (combine (map (ch_link c) (seq 0 n)) q) xs /\
  links_at (map (ch_link c) (seq 0 n)) xs f /\
  forall o i, fwdKin (Sv k o i) q <> Some (frameToVector (fmul H0 (fmul f HN))).
Proof.
  exists rail, rail_solver, rail_chain, IkLma, 1%nat, fid, fid, [1], [1].
  exists (fmul (fmul (shift ex 1) (F mid (V 0 0 0))) fid).
  split; [apply rail_open|]. split; [reflexivity|]. split; [constructor; [apply rail_described|constructor]|].
  split; [constructor|]. split; [constructor|]. split; [reflexivity|].
  split. { constructor; [|constructor]. cbn. apply in_metres; [apply rail_described|apply rail_not_rotary]. }
  split. { cbn. constructor; [|constructor]. apply (at_xyz 0 0 0 "TransX" (shift ex)). cbn. tauto. }
  intros o i H.
  destruct (open_forward rail rail_solver rail_chain IkLma 1 fid fid rail_open eq_refl) with (o := o) (i := i) (q := [1])
    as (f' & Lf' & E').
  { constructor; [apply rail_described|constructor]. }
  { constructor. } { constructor. } { cbn; lia. }
  cbn [firstn map] in Lf'.
  assert (E : f' = fmul (fmul (shift ex (degToRad 1)) (F mid (V 0 0 0))) fid).
  { eapply links_at_fun; [exact Lf'|]. cbn. constructor; [|constructor]. apply (at_xyz 0 0 0 "TransX" (shift ex)). cbn. tauto. }
  subst f'. rewrite E' in H. clear E' Lf'.
  assert (X : degToRad 1 = 1).
  { generalize dependent (degToRad 1). intros d H.
    apply (f_equal (fun o => match o with Some l => hd 0 l | None => 0 end)) in H.
    change (vx (fp (fmul fid (fmul (fmul (fmul (shift ex d) (F mid (V 0 0 0))) fid) fid))) = vx (fp (fmul fid (fmul (fmul (fmul (shift ex 1) (F mid (V 0 0 0))) fid) fid)))) in H.
    rewrite !fmul_id_l, !fmul_id_r in H. cbn in H. lra. }
  unfold degToRad in X. pose proof PI_RGT_0. pose proof PI_4. lra.
Qed.

(** C88 *)
Lemma open_joints : forall c sc k ik n, kdl_open c sc = Some (k, ik) ->
  ch_numLinks c = Some (Z.of_nat n) -> Forall described (map (ch_link c) (seq 0 n)) -> nr_of_joints k = n.
Proof. intros c sc k ik n Ho En D. exact (proj1 (cfg_chain_spec c n k En D (kdl_open_chain _ _ _ _ Ho))). Qed.

Definition typo : chain_cfg :=
  Ch (Some 2%Z) None (fun i => Lg None (Some (Xyz 0 0 1 (if Nat.eqb i 0 then "RotZ" else "rotX")))) None.
Lemma joints_dropped : exists c sc k ik n, kdl_open c sc = Some (k, ik) /\
  ch_numLinks c = Some (Z.of_nat n) /\ nr_of_joints k <> n.
Proof.
  exists typo, rail_solver. eexists. exists IkLma, 2%nat. split; [reflexivity|]. split; [reflexivity|]. cbn. discriminate.
Qed.

Lemma link_segments_none : forall gs g, In g gs -> lg_dh g = None -> lg_xyz g = None -> forall i, link_segments i gs = None.
Proof.
  induction gs as [|g' gs IH]; intros g I D X i; [contradiction|]. cbn [link_segments].
  destruct I as [->|I].
  - unfold link_segment. now rewrite D, X.
  - rewrite (IH g I D X (S i)). destruct (link_segment g'); reflexivity.
Qed.
Lemma open_missing : forall c sc n i, ch_numLinks c = Some (Z.of_nat n) -> (i < n)%nat ->
  lg_dh (ch_link c i) = None -> lg_xyz (ch_link c i) = None -> kdl_open c sc = None.
Proof.
  intros c sc n i En L D X. unfold kdl_open, cfg_chain, ch_links. rewrite En, Nat2Z.id.
  rewrite (link_segments_none _ (ch_link c i)); auto.
  apply in_map_iff. exists i. split; [reflexivity|]. apply in_seq. lia.
Qed.

Definition limits_of (ik : ik_pos) : option (list R * list R) :=
  match ik with IkLma => None | IkNrjl l | IkLeast l | IkGait l | IkId l => Some l end.

Lemma limits_ok_spec : forall mins maxs, limits_ok mins maxs = true -> length mins = length maxs ->
  Forall2 (fun a b => a <= b) mins maxs.
Proof.
  induction mins as [|a mins IH]; intros [|b maxs] H L; try discriminate; constructor.
  - cbn in H. apply andb_true_iff in H. destruct H as [H _]. apply negb_true_iff, Rltb_false in H.
    unfold degToRad in H. pose proof PI_RGT_0. nra.
  - apply IH; [|now injection L]. cbn in H. now apply andb_true_iff in H.
Qed.

Lemma retrieve_spec : forall n mins maxs lo hi, retrieveJointLimits n mins maxs = Some (lo, hi) ->
  exists a b, mins = Some a /\ maxs = Some b /\ length a = n /\ length b = n /\ lo = map degToRad a /\ hi = map degToRad b /\
    Forall2 (fun x y => x <= y) a b.
Proof.
  intros n mins maxs lo hi H. unfold retrieveJointLimits in H.
  destruct mins as [a|]; [|discriminate]. destruct maxs as [b|]; [|discriminate].
  destruct (Nat.eqb (length b) n) eqn:B; [|discriminate]. destruct (Nat.eqb (length a) n) eqn:A; [|discriminate].
  cbn [andb negb] in H. destruct (limits_ok a b) eqn:K; [|discriminate].
  apply Nat.eqb_eq in A, B. exists a, b. repeat split; try congruence.
  apply limits_ok_spec; congruence.
Qed.

Lemma open_limits : forall c sc k ik lo hi, kdl_open c sc = Some (k, ik) -> limits_of ik = Some (lo, hi) ->
  exists a b, sc_mins sc = Some a /\ sc_maxs sc = Some b /\ length a = nr_of_joints k /\ length b = nr_of_joints k /\
    lo = map degToRad a /\ hi = map degToRad b /\ Forall2 (fun x y => x <= y) a b.
Proof.
  intros c sc k ik lo hi H L. pose proof (kdl_open_chain _ _ _ _ H) as Ek.
  unfold kdl_open in H. rewrite Ek in H. destruct (negb _); [discriminate|].
  apply retrieve_spec. destruct (retrieveJointLimits _ _ _) as [lim|].
  2:{ exfalso. repeat match type of H with context [if ?b then _ else _] => destruct b end; try discriminate;
      cbn in H; injection H as <-; discriminate. }
  repeat match type of H with context [if ?b then _ else _] => destruct b end; try discriminate; cbn in H;
    injection H as <-; cbn in L; try discriminate; congruence.
Qed.

(** an arm with two rotary joints, one of each kind *)
Definition arm2 : chain_cfg :=
  Ch (Some 2%Z) None (fun i => if Nat.eqb i 0 then Lg (Some (Dh 90 1 2 (-90))) None else Lg None (Some (Xyz 0 0 1 "InvRotY")))
     (Some [1; 0; 0; 0; 0; 1; 0; 0; 0; 0; 1; 3; 0; 0; 0; 1]).
Definition arm2_solver : solver_cfg := Sc None None None None None (Some [-10; -20]) (Some [10; 20]).
Lemma arm2_limits : limits_ok [-10; -20] [10; 20] = true.
Proof.
  cbn. pose proof PI_RGT_0. unfold degToRad.
  rewrite !(proj2 (Rltb_false _ _)) by nra. reflexivity.
Qed.
Lemma arm2_open : exists k, kdl_open arm2 arm2_solver = Some (k, IkLeast (map degToRad [-10; -20], map degToRad [10; 20])).
Proof.
  eexists. unfold kdl_open. cbn [cfg_chain arm2 ch_links ch_numLinks]. cbn [or_default sc_ikVel sc_ik sc_ikPos sc_strategy sc_weights arm2_solver sc_mins sc_maxs].
  unfold retrieveJointLimits. rewrite arm2_limits. cbn. reflexivity.
Qed.
Lemma arm2_rotary : Forall rotary (map (ch_link arm2) (seq 0 2)).
Proof.
  constructor; [left; discriminate|]. constructor; [|constructor].
  right. exists 0, 0, 1, "InvRotY"%string. split; [reflexivity|]. cbn. tauto.
Qed.
Lemma arm2_coordinates : Forall2 (fun gv x => coordinate (fst gv) (snd gv) x) (combine (map (ch_link arm2) (seq 0 2)) [30; 45]) [30 * PI / 180; 45 * PI / 180].
Proof.
  pose proof arm2_rotary as H. inversion H as [|? ? A B]; subst. inversion B; subst.
  cbn. constructor; [now apply in_degrees|]. constructor; [now apply in_degrees|constructor].
Qed.
