(** Model of the screw-theory forward kinematics solver (KdlSolver plugin).  The solver keeps a reference to the
    chain of its owner: the chain is a separate component that the owner may change. *)
From Coq Require Import ZArith Reals List.
From Verif Require Import Kdl Screw KdlSolver.
Import ListNotations.
Open Scope R_scope.

(** ChainFkSolverPos_ST.hpp 83-87: the referenced chain, the formula and the inherited [error] *)
Record fk_st := FkSt { fk_chain : chain; fk_poe : poe; fk_error : Z }.

(** ChainFkSolverPos_ST.hpp 76-79 *)
Definition E_OPERATION_NOT_SUPPORTED : Z := (-100)%Z.
Definition E_ILLEGAL_ARGUMENT_SIZE : Z := (-101)%Z.

(** ChainFkSolverPos_ST.cpp 9-12, 60-63: constructor, create *)
Definition fk_create (c : chain) : fk_st := FkSt c (fromChain c) E_NOERROR.

(** ChainFkSolverPos_ST.cpp 16-29: JntToCart; the code, the output argument afterwards and the solver.
    evaluate writes nothing when it returns false (ProductOfExponentials.cpp 84-88). *)
Definition fk_jnt_to_cart (k : fk_st) (q : list R) (p_out : frame) (segmentNr : Z) : Z * frame * fk_st :=
  let answer e p := (e, p, FkSt (fk_chain k) (fk_poe k) e) in
  if Z.leb 0 segmentNr then answer E_OPERATION_NOT_SUPPORTED p_out
  else match evaluate (fk_poe k) q with
       | None => answer E_ILLEGAL_ARGUMENT_SIZE p_out
       | Some f => answer E_NOERROR f
       end.

(** ChainFkSolverPos_ST.cpp 33-36: JntToCart for all segments *)
Definition fk_jnt_to_carts (k : fk_st) (q : list R) (p_out : list frame) (segmentNr : Z) : Z * list frame * fk_st :=
  (E_OPERATION_NOT_SUPPORTED, p_out, FkSt (fk_chain k) (fk_poe k) E_OPERATION_NOT_SUPPORTED).

(** ChainFkSolverPos_ST.cpp 40-43: updateInternalDataStructures *)
Definition fk_update (k : fk_st) : fk_st := FkSt (fk_chain k) (fromChain (fk_chain k)) (fk_error k).

(** what can happen to a solver; [Change]: its owner modifies the chain *)
Inductive fk_op := Change (c : chain) | Update | Ask1 (q : list R) (p_out : frame) (n : Z) | AskAll (q : list R) (p_out : list frame) (n : Z).
Definition fk_step (k : fk_st) (o : fk_op) : fk_st :=
  match o with
  | Change c => FkSt c (fk_poe k) (fk_error k)
  | Update => fk_update k
  | Ask1 q p n => snd (fk_jnt_to_cart k q p n)
  | AskAll q p n => snd (fk_jnt_to_carts k q p n)
  end.
