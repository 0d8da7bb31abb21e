(** Properties of the screw-theory forward kinematics (C01-C08, C58). *)
From Coq Require Import Reals List.
From Verif Require Import Kdl KdlFacts Screw ScrewFacts.
Import ListNotations.
Open Scope R_scope.

(** C01: FK of any formula obtained through the public interface is a rigid motion, and it
    is defined exactly for joint vectors of matching size. *)
Theorem C01_fk_rigid : forall p q, poe_reachable p ->
  (length q = length (exps p) -> exists h, evaluate p q = Some h /\ rigid h) /\
  (length q <> length (exps p) -> evaluate p q = None).
Proof. exact fk_rigid. Qed.
Print Assumptions C01_fk_rigid.
Example C01_example : poe_reachable ex_poe /\ length [PI / 2; 3] = length (exps ex_poe).
Proof. exact (conj ex_poe_reachable eq_refl). Qed.

(** C01: FK moves a point of the tool by the tool transform, then by the last term, ..., then
    by the first term. *)
Theorem C01_fk_ordered_product : forall p q h x, evaluate p q = Some h ->
  fapp h x =
  fold_right (fun eq y => fapp (asFrame (fst eq) (snd eq)) y) (fapp (tool p) x) (combine (exps p) q).
Proof. exact fk_point. Qed.
Print Assumptions C01_fk_ordered_product.
Example C01_ordered_example : exists f, evaluate ex_poe [PI / 2; 3] = Some f.
Proof. exact ex_poe_eval. Qed.

(** C02: one-parameter group, fixed axis, independence of the point chosen on the axis;
    no hypotheses, every axis (the constructor replaces tiny ones). *)
Theorem C02_exp_one_parameter_group : forall m a o s t x l,
  asFrame (mk_exp m a o) 0 = fid /\
  asFrame (mk_exp m a o) (s + t) = fmul (asFrame (mk_exp m a o) s) (asFrame (mk_exp m a o) t) /\
  asFrame (mk_exp m a o) (- t) = finv (asFrame (mk_exp m a o) t) /\
  (m = ROTATION ->
     fapp (asFrame (mk_exp m a o) t) (vadd o (vscale l (normalize a))) = vadd o (vscale l (normalize a)) /\
     asFrame (mk_exp m a (vadd o (vscale l (normalize a)))) t = asFrame (mk_exp m a o) t /\
     norm (vsub (fapp (asFrame (mk_exp m a o) t) x) o) = norm (vsub x o)) /\
  (m = TRANSLATION -> fapp (asFrame (mk_exp m a o) t) x = vadd x (vscale t (normalize a))).
Proof. exact exp_group_law. Qed.
Print Assumptions C02_exp_one_parameter_group.

(** C02: sense of rotation (right-hand rule). *)
Theorem C02_exp_quarter_turn : forall a o w, dot (normalize a) w = 0 ->
  fapp (asFrame (mk_exp ROTATION a o) (PI / 2)) (vadd o w) = vadd o (cross (normalize a) w).
Proof. exact exp_quarter_turn. Qed.
Print Assumptions C02_exp_quarter_turn.
Example C02_quarter_turn_example : dot (V 0 0 1) (V 1 0 0) = 0.
Proof. unfold dot; cbn; ring. Qed.

(** C03: re-basing a term is conjugation. *)
Theorem C03_rebase_is_conjugation : forall e h t, unit (e_axis e) -> rigid h ->
  asFrame (cloneWithBase e h) t = fmul (fmul h (asFrame e t)) (finv h).
Proof. exact changeBase_conj. Qed.
Print Assumptions C03_rebase_is_conjugation.
Example C03_example : unit (e_axis (mk_exp ROTATION (V 0 0 5) (V 1 0 0))) /\ rigid (F (RotZ (PI / 2)) (V 0 1 0)).
Proof. exact (conj (mk_exp_unit _ _ _) (rotz_rigid _ _)). Qed.

(** C04: base change composes on the left. *)
Theorem C04_change_base : forall p h q f, poe_ok p -> rigid h -> evaluate p q = Some f ->
  evaluate (changeBaseFrame p h) q = Some (fmul h f).
Proof. exact fk_changeBase. Qed.
Print Assumptions C04_change_base.
(** C04: tool change composes on the right. *)
Theorem C04_change_tool : forall p h q f, evaluate p q = Some f ->
  evaluate (changeToolFrame p h) q = Some (fmul f h).
Proof. exact fk_changeTool. Qed.
Print Assumptions C04_change_tool.
(** C04: appending another formula; its tool transform replaces the old one. *)
Theorem C04_append : forall p p' h q q' f f', poe_ok p -> poe_ok p' -> rigid h ->
  evaluate (P (exps p) fid) q = Some f -> evaluate p' q' = Some f' ->
  evaluate (append_poe p p' h) (q ++ q') = Some (fmul (fmul f h) f') /\
  length (exps (append_poe p p' h)) = (length (exps p) + length (exps p'))%nat.
Proof. exact fk_append. Qed.
Print Assumptions C04_append.
Example C04_example : poe_ok ex_poe /\ rigid (F (RotZ (PI / 2)) (V 0 1 0)) /\
  exists f, evaluate ex_poe [PI / 2; 3] = Some f.
Proof. exact (conj ex_poe_ok (conj (rotz_rigid _ _) ex_poe_eval)). Qed.

(** C05: the reversed formula inverts FK. *)
Theorem C05_reverse_inverts_fk : forall p q f, poe_ok p -> evaluate p q = Some f ->
  evaluate (reverseSelf p) (rev (map Ropp q)) = Some (finv f).
Proof. exact fk_reverse. Qed.
Print Assumptions C05_reverse_inverts_fk.
Theorem C05_make_reverse_agrees : forall p, makeReverse p = reverseSelf p.
Proof. exact makeReverse_eq. Qed.
Print Assumptions C05_make_reverse_agrees.
Theorem C05_reverse_twice : forall p q, poe_ok p ->
  evaluate (reverseSelf (reverseSelf p)) q = evaluate p q.
Proof. exact fk_reverse_reverse. Qed.
Print Assumptions C05_reverse_twice.
Example C05_example : poe_ok ex_poe /\ exists f, evaluate ex_poe [PI / 2; 3] = Some f.
Proof. exact (conj ex_poe_ok ex_poe_eval). Qed.

(** C06: toChain preserves FK. *)
Theorem C06_to_chain : forall p q, poe_ok p -> length q = length (exps p) ->
  exists c f, toChain p = Some c /\ nr_of_joints c = length (exps p) /\
    evaluate p q = Some f /\ chain_fwd_kin c q = Some f.
Proof. exact fk_toChain. Qed.
Print Assumptions C06_to_chain.
Example C06_example : poe_ok ex_poe /\ length [PI / 2; 3] = length (exps ex_poe).
Proof. exact (conj ex_poe_ok eq_refl). Qed.

(** C07: fromChain preserves FK for unit-scale, zero-offset joints. *)
Theorem C07_from_chain : forall c q, chain_ok c -> length q = nr_of_joints c ->
  length (exps (fromChain c)) = nr_of_joints c /\
  exists f, chain_fwd_kin c q = Some f /\ evaluate (fromChain c) q = Some f.
Proof. exact fk_fromChain. Qed.
Print Assumptions C07_from_chain.
Example C07_example : chain_ok ex_chain /\ nr_of_joints ex_chain = 2%nat.
Proof. exact ex_chain_ok. Qed.
(** C07: round trip through a chain. *)
Theorem C07_round_trip : forall p q c, poe_ok p -> toChain p = Some c ->
  evaluate (fromChain c) q = evaluate p q.
Proof. exact fk_roundtrip. Qed.
Print Assumptions C07_round_trip.

(** C08 (refuted): a joint of kind InvRotZ (scale -1) is converted with the wrong sense. *)
Theorem C08_from_chain_scaled_refuted : exists q f f',
  chain_fwd_kin inv_rotz_chain q = Some f /\ evaluate (fromChain inv_rotz_chain) q = Some f' /\ f <> f'.
Proof. exact inv_rotz_mismatch. Qed.
Print Assumptions C08_from_chain_scaled_refuted.

(** C58 (refuted): appending a non-empty formula to itself never finishes. *)
Theorem C58_append_self_terminates_refuted : forall fuel p h, exps p <> [] ->
  append_self_loop fuel 0 (exps p) h = None.
Proof. exact append_self_diverges. Qed.
Print Assumptions C58_append_self_terminates_refuted.
Example C58_example : exps ex_poe <> [].
Proof. discriminate. Qed.
