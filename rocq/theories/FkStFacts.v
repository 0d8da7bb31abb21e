(** Lemmas about the screw-theory forward kinematics solver. *)
From Coq Require Import ZArith Reals Lra List Lia Arith.
From Verif Require Import Kdl KdlFacts Screw ScrewFacts KdlSolver FkSt FkStSpec.
Import ListNotations.
Open Scope R_scope.

Lemma fk_known : forall os k c, fk_poe k = fromChain c -> fk_poe (fold_left fk_step os k) = fromChain (seen (fk_chain k) c os).
Proof.
  induction os as [|o os IH]; intros k c H; [exact H|]. cbn [fold_left].
  destruct o as [c'| |q p n|q p n]; cbn [seen fk_step].
  - apply (IH (FkSt c' (fk_poe k) (fk_error k)) c H).
  - apply (IH (fk_update k)). reflexivity.
  - assert (E : fk_chain (snd (fk_jnt_to_cart k q p n)) = fk_chain k /\ fk_poe (snd (fk_jnt_to_cart k q p n)) = fk_poe k).
    { unfold fk_jnt_to_cart. destruct (Z.leb 0 n); [auto|]. destruct (evaluate _ _); auto. }
    destruct E as [E1 E2]. rewrite <- E1. apply IH. congruence.
  - apply (IH (snd (fk_jnt_to_carts k q p n)) c H).
Qed.
Theorem fk_agrees : forall c0 os q p n, let c := seen c0 c0 os in let k := fold_left fk_step os (fk_create c0) in
  chain_ok c -> (n < 0)%Z ->
  (length q = nr_of_joints c -> exists f k', chain_fwd_kin c q = Some f /\ fk_jnt_to_cart k q p n = (E_NOERROR, f, k')) /\
  (length q <> nr_of_joints c -> exists e k', fk_jnt_to_cart k q p n = (e, p, k') /\ (e < 0)%Z).
Proof.
  intros c0 os q p n c k CO N. pose proof (fk_known os (fk_create c0) c0 eq_refl) as E. cbn [fk_chain fk_create] in E. fold k c in E.
  assert (NN : Z.leb 0 n = false) by (apply Z.leb_gt; exact N).
  assert (LN : length (exps (fromChain c)) = nr_of_joints c) by (apply (fk_fromChain c (repeat 0 (nr_of_joints c)) CO), repeat_length).
  split; intro L; unfold fk_jnt_to_cart; rewrite NN, E.
  - destruct (fk_fromChain c q CO L) as (_ & f & F1 & F2). rewrite F1, F2. eauto.
  - rewrite evaluate_none by congruence. do 2 eexists. split; [reflexivity|]. reflexivity.
Qed.
Theorem fk_segments : forall k q p ps n m, (0 <= n)%Z ->
  (exists k', fk_jnt_to_cart k q p n = (E_OPERATION_NOT_SUPPORTED, p, k')) /\ exists k', fk_jnt_to_carts k q ps m = (E_OPERATION_NOT_SUPPORTED, ps, k').
Proof. intros k q p ps n m N. unfold fk_jnt_to_cart, fk_jnt_to_carts. apply Z.leb_le in N. rewrite N. eauto. Qed.
Lemma fk_reversed : exists c q f f' k', chain_fwd_kin c q = Some f /\ fk_jnt_to_cart (fk_create c) q fid (-1) = (E_NOERROR, f', k') /\ f' <> f.
Proof.
  destruct inv_rotz_mismatch as (q & f & f' & A & B & N). exists inv_rotz_chain, q, f, f'. eexists.
  split; [exact A|]. split; [|congruence]. unfold fk_jnt_to_cart. cbn [Z.leb Z.compare fk_create fk_poe]. rewrite B. reflexivity.
Qed.
