(** Model of MatrixExponential and PoeExpression (ScrewTheoryLib). *)
From Coq Require Import Reals List.
From Verif Require Import Kdl.
Import ListNotations.
Open Scope R_scope.

(** ** MatrixExponential *)

(** MatrixExponential.hpp 22-26: enum motion *)
Inductive motion := ROTATION | TRANSLATION.

(** MatrixExponential.hpp 90-93: data members *)
Record mexp := E { e_motion : motion; e_axis : vec; e_origin : vec }.

(** MatrixExponential.cpp 26-32: constructor, normalises the axis *)
Definition mk_exp (m : motion) (axis origin : vec) : mexp := E m (normalize axis) origin.

(** MatrixExponential.cpp 36-54: asFrame. [axis * origin * axis] is (axis x origin) x axis.
    Simplification: the unreachable default branch of the switch is dropped. *)
Definition asFrame (e : mexp) (theta : R) : frame :=
  match e_motion e with
  | ROTATION =>
      let m := Rot2 (e_axis e) theta in
      F m (mv (msub mid m) (cross (cross (e_axis e) (e_origin e)) (e_axis e)))
  | TRANSLATION => F mid (vscale theta (e_axis e))
  end.

(** MatrixExponential.cpp 58-75: changeBase, cloneWithBase (the copy that changeBase updates) *)
Definition changeBase (e : mexp) (h : frame) : mexp :=
  E (e_motion e) (mv (fM h) (e_axis e))
    (match e_motion e with ROTATION => fapp h (e_origin e) | TRANSLATION => e_origin e end).
Definition cloneWithBase := changeBase.

(** ** PoeExpression *)

(** ProductOfExponentials.hpp 164-166: data members *)
Record poe := P { exps : list mexp; tool : frame }.

(** ProductOfExponentials.hpp 35: constructor *)
Definition mk_poe (h : frame) : poe := P [] h.

(** ProductOfExponentials.hpp 47-48: append(exp, H_new_old) *)
Definition append_exp (p : poe) (e : mexp) (h : frame) : poe :=
  P (exps p ++ [cloneWithBase e h]) (tool p).

(** ProductOfExponentials.cpp 58-66: append(poe, H_new_old), for two distinct objects *)
Definition append_poe (p p' : poe) (h : frame) : poe :=
  P (exps (fold_left (fun acc e => append_exp acc e h) (exps p') p)) (fmul h (tool p')).

(** ProductOfExponentials.cpp 70-78: changeBaseFrame *)
Definition changeBaseFrame (p : poe) (h : frame) : poe :=
  P (map (fun e => changeBase e h) (exps p)) (fmul h (tool p)).

(** ProductOfExponentials.hpp 104-105: changeToolFrame *)
Definition changeToolFrame (p : poe) (h : frame) : poe := P (exps p) (fmul (tool p) h).

(** ProductOfExponentials.cpp 92-95: the loop of evaluate *)
Definition eval_terms (es : list mexp) (q : list R) (h : frame) : frame :=
  fold_left (fun acc eq => fmul acc (asFrame (fst eq) (snd eq))) (combine es q) h.

(** ProductOfExponentials.cpp 82-100: evaluate; [None] stands for the return value false *)
Definition evaluate (p : poe) (q : list R) : option frame :=
  if Nat.eqb (length (exps p)) (length q)
  then Some (fmul (eval_terms (exps p) q fid) (tool p))
  else None.

(** ProductOfExponentials.cpp 104-114: reverseSelf *)
Definition reverseSelf (p : poe) : poe :=
  let h := finv (tool p) in P (rev (map (fun e => changeBase e h) (exps p))) h.

(** ProductOfExponentials.cpp 118-134: makeReverse *)
Definition makeReverse (p : poe) : poe :=
  let r0 := P [] (finv (tool p)) in
  let r := fold_left (fun acc e => append_exp acc e (tool acc)) (exps p) r0 in
  P (rev (exps r)) (tool r).

(** ProductOfExponentials.cpp 22-33: motionToJointType *)
Definition motionToJointType (m : motion) : jtype :=
  match m with ROTATION => JRotAxis | TRANSLATION => JTransAxis end.

(** ProductOfExponentials.cpp 35-53: jointTypeToMotionId ([None] is UNKNOWN_OR_STATIC_JOINT) *)
Definition jointTypeToMotionId (t : jtype) : option motion :=
  match t with
  | JRotAxis | JRotX | JRotY | JRotZ => Some ROTATION
  | JTransAxis | JTransX | JTransY | JTransZ => Some TRANSLATION
  | JNone => None
  end.

(** ProductOfExponentials.cpp 143-156: loop of toChain; [None] if the KDL constructor throws *)
Fixpoint toChain_loop (es : list mexp) (h_prev : frame) (c : chain) : option (chain * frame) :=
  match es with
  | [] => Some (c, h_prev)
  | e :: es' =>
      match mk_axis_joint (fapp (finv h_prev) (e_origin e)) (e_axis e) (motionToJointType (e_motion e)) with
      | None => None
      | Some j =>
          let s := mk_segment j (ftrans (j_origin j)) in
          toChain_loop es' (ftrans (e_origin e)) (c ++ [s])
      end
  end.

(** ProductOfExponentials.cpp 138-163: toChain *)
Definition toChain (p : poe) : option chain :=
  match toChain_loop (exps p) fid [] with
  | None => None
  | Some (c, h_prev) =>
      match mk_joint JNone 1 0 with
      | None => None
      | Some j => Some (c ++ [mk_segment j (fmul (finv h_prev) (tool p))])
      end
  end.

(** ProductOfExponentials.cpp 174-188: body of the loop of fromChain *)
Definition fromChain_step (st : poe * frame) (s : segment) : poe * frame :=
  let (p, h_prev) := st in
  let j := s_joint s in
  let p' :=
    match jointTypeToMotionId (j_type j) with
    | Some m => append_exp p (mk_exp m (mv (fM h_prev) (joint_axis j)) (fapp h_prev (j_origin j))) fid
    | None => p
    end in
  (p', fmul h_prev (segment_pose s 0)).

(** ProductOfExponentials.cpp 167-193: fromChain *)
Definition fromChain (c : chain) : poe :=
  let (p, h) := fold_left fromChain_step c (mk_poe fid, fid) in P (exps p) h.

(** ** Specification vocabulary *)

(** joint vector of the opposite sense and order *)
Definition rev_neg (q : list R) : list R := rev (map Ropp q).

(** formulas whose screw axes are unit vectors and whose tool transform is rigid *)
Definition poe_ok (p : poe) : Prop := Forall (fun e => unit (e_axis e)) (exps p) /\ rigid (tool p).

(** KDL chains: rigid links, moving joints with unit scale, zero offset, unit axis *)
Definition segment_ok (s : segment) : Prop :=
  rigid (s_tip s) /\
  (j_type (s_joint s) = JRotAxis \/ j_type (s_joint s) = JTransAxis -> unit (j_axis (s_joint s))) /\
  (j_type (s_joint s) <> JRotAxis -> j_type (s_joint s) <> JTransAxis -> j_origin (s_joint s) = vzero) /\
  j_scale (s_joint s) = 1 /\ j_offset (s_joint s) = 0.
Definition chain_ok (c : chain) : Prop := Forall segment_ok c.

(** everything that can be obtained through the public interface with rigid arguments *)
Inductive poe_reachable : poe -> Prop :=
| pr_new : forall h, rigid h -> poe_reachable (mk_poe h)
| pr_append_exp : forall p m a o h, poe_reachable p -> rigid h ->
    poe_reachable (append_exp p (mk_exp m a o) h)
| pr_append_poe : forall p p' h, poe_reachable p -> poe_reachable p' -> rigid h ->
    poe_reachable (append_poe p p' h)
| pr_base : forall p h, poe_reachable p -> rigid h -> poe_reachable (changeBaseFrame p h)
| pr_tool : forall p h, poe_reachable p -> rigid h -> poe_reachable (changeToolFrame p h)
| pr_reverseSelf : forall p, poe_reachable p -> poe_reachable (reverseSelf p)
| pr_makeReverse : forall p, poe_reachable p -> poe_reachable (makeReverse p)
| pr_fromChain : forall c, chain_ok c -> poe_reachable (fromChain c).

(** ProductOfExponentials.cpp 60-63: loop of append(poe, H_new_old) when [poe] is the object itself:
    poe.size() is re-read in every iteration. [None]: still running after [fuel] iterations. *)
Fixpoint append_self_loop (fuel i : nat) (es : list mexp) (h : frame) : option (list mexp) :=
  match fuel with
  | O => None
  | Datatypes.S fuel' =>
      match nth_error es i with
      | None => Some es
      | Some e => append_self_loop fuel' (Datatypes.S i) (es ++ [cloneWithBase e h]) h
      end
  end.
