(** Properties of the closed-form inverse kinematics (C15-C17). *)
From Coq Require Import Reals List Bool Lra Lia.
From Verif Require Import Kdl KdlFacts Screw ScrewFacts Subproblems IkProblem IkSpec IkProblemFacts3.
From Verif Require IkProblemFacts2.
Import ListNotations.
Open Scope R_scope.
Local Notation S := Datatypes.S.

(** C15: number and size of the candidates, meaning of the flag, one candidate per path. *)
Theorem C15_candidates : forall p reversed target ss flag cands,
  poe_ok p -> steps_ok (length (exps p)) ss -> ss <> [] ->
  ik_solve p (map fst ss) reversed target = Some (flag, cands) ->
  length cands = computeSolutions (map fst ss) /\
  computeSolutions (map fst ss) = paths ss /\
  (forall q, In q cands -> length q = length (exps p)) /\
  exists bs, flag = forallb (fun b => b) bs /\ length bs = length cands /\
    forall c q, nth_error cands c = Some q ->
      derived p reversed target code_marks ss (choices ss c) q (nth c bs true).
Proof.
  intros p reversed target ss flag cands POK OK NE H.
  destruct (IkProblemFacts2.solve_spec p reversed target POK ss flag cands OK NE H) as (A & B & C).
  exact (conj A (conj (computeSolutions_paths ss NE) (conj B C))).
Qed.
Print Assumptions C15_candidates.
(** the steps of all seven subproblems qualify, and this run exists *)
Example C15_candidates_example :
  poe_ok tx4 /\ steps_ok 4 marks_steps /\
  ik_solve tx4 (map fst marks_steps) false fid = Some (true, [[0; 0; 0; 0]; [0; -2; 0; 0]]).
Proof. exact (conj tx_ok (conj marks_ok marks_result)). Qed.

(** C15: every combination of local solutions is the path of some candidate. *)
Theorem C15_every_path : forall p reversed target ss flag cands ks,
  poe_ok p -> steps_ok (length (exps p)) ss -> ss <> [] ->
  ik_solve p (map fst ss) reversed target = Some (flag, cands) ->
  Forall2 (fun (s : step * list nat) k => (k < st_count (fst s))%nat) ss ks ->
  exists c q ok, nth_error cands c = Some q /\ derived p reversed target code_marks ss ks q ok.
Proof.
  intros p reversed target ss flag cands ks POK OK NE H F.
  destruct (IkProblemFacts2.solve_spec p reversed target POK ss flag cands OK NE H) as (A & _ & bs & _ & _ & D).
  destruct (choices_onto ss ks F) as (c & L & E). rewrite <- (computeSolutions_paths ss NE), <- A in L.
  destruct (nth_error cands c) as [q|] eqn:N; [|apply nth_error_None in N; lia].
  exists c, q, (nth c bs true). rewrite <- E. auto.
Qed.
Print Assumptions C15_every_path.
Example C15_every_path_example : Forall2 (fun (s : step * list nat) k => (k < st_count (fst s))%nat) marks_steps [1%nat; 0%nat].
Proof. repeat constructor. Qed.

(** C15: a result is returned whenever no step divides by zero. *)
Theorem C15_total : forall p reversed target ss,
  poe_ok p -> steps_ok (length (exps p)) ss ->
  (forall s ids rhs h, In (s, ids) ss -> st_solve s rhs h <> None) ->
  exists flag cands, ik_solve p (map fst ss) reversed target = Some (flag, cands).
Proof. exact (fun p reversed target ss POK OK SV => solve_total p reversed target POK ss OK SV). Qed.
Print Assumptions C15_total.
Example C15_total_example : steps_ok 4 order_steps /\ forall s ids rhs h, In (s, ids) order_steps -> st_solve s rhs h <> None.
Proof. exact (conj order_ok order_defined). Qed.

(** C15, each step fed with the transforms of the candidate's own joints: it holds when the
    steps after the first branching assign the first unknown terms.  Missing: other orders,
    for which it is false (next theorem). *)
Theorem C15_own_transforms_partial : forall p reversed target ss flag cands,
  poe_ok p -> steps_ok (length (exps p)) ss -> ss <> [] -> in_order p ss ->
  ik_solve p (map fst ss) reversed target = Some (flag, cands) ->
  exists bs, flag = forallb (fun b => b) bs /\ length bs = length cands /\
    forall c q, nth_error cands c = Some q ->
      derived p reversed target own_marks ss (choices ss c) q (nth c bs true).
Proof. exact (fun p reversed target ss flag cands POK OK NE IO H => solve_own p reversed target POK ss flag cands OK NE IO H). Qed.
Print Assumptions C15_own_transforms_partial.
Example C15_own_transforms_example : poe_ok tx4 /\ steps_ok 4 order_steps /\ in_order tx4 order_steps.
Proof. exact (conj tx_ok (conj order_ok order_in)). Qed.

(** C15 is false as stated: here the second candidate was fed with a transform that ignores
    its own first joint; the flag is true although its pose is not the target. *)
Theorem C15_own_transforms_refuted : exists p ss target cands q f,
  poe_ok p /\ steps_ok (length (exps p)) ss /\ ss <> [] /\
  ik_solve p (map fst ss) false target = Some (true, cands) /\
  nth_error cands 1 = Some q /\
  (forall ks ok, ~ derived p false target own_marks ss ks q ok) /\
  evaluate p q = Some f /\ f <> target.
Proof. exact marks_bad. Qed.
Print Assumptions C15_own_transforms_refuted.

(** the library's subproblems meet the contract of C15 *)
Theorem C15_library_steps : forall id1 id2 e1 e2 x r,
  step_ok (pk1_step id1 e1 x) [id1] /\ step_ok (pk2_step id1 id2 e1 e2 x r) [id1; id2] /\
  step_ok (pk3_step id1 e1 x r) [id1] /\ step_ok (pg1_step id1 e1 x) [id1] /\
  step_ok (pg2_step id1 id2 e1 e2 x) [id1; id2] /\ step_ok (pg3_step id1 e1 x r) [id1] /\
  step_ok (pg4_step id1 id2 e1 e2 x) [id1; id2].
Proof.
  exact (fun id1 id2 e1 e2 x r => conj (pk1_ok id1 e1 x) (conj (pk2_ok id1 id2 e1 e2 x r) (conj (pk3_ok id1 e1 x r)
    (conj (pg1_ok id1 e1 x) (conj (pg2_ok id1 id2 e1 e2 x) (conj (pg3_ok id1 e1 x r) (pg4_ok id1 id2 e1 e2 x))))))).
Qed.
Print Assumptions C15_library_steps.
