(** The search of subproblems carried out on rational numbers.  Nothing here models code: each function repeats the one
    of the model whose name it bears (without the q), so that the search can be run on given arms; BuilderRunFacts.v
    shows that the two agree. *)
From Coq Require Import QArith Reals Qreals List Bool Arith.
From Verif Require Import Kdl Screw Builder.
Import ListNotations.
Open Scope Q_scope.
Local Notation S := Datatypes.S.

(** numbers and vectors *)
Definition qltb (a b : Q) : bool := (Qnum a * QDen b <? Qnum b * QDen a)%Z.
Definition qeps : Q := 1 # 1000000.
Definition qEqual (a b : Q) : bool := qltb (a - b) qeps && qltb (- qeps) (a - b).
Record qvec := QV { qx : Q; qy : Q; qz : Q }.
Definition qzero : qvec := QV 0 0 0.
Definition qred (v : qvec) : qvec := QV (Qred (qx v)) (Qred (qy v)) (Qred (qz v)).
Definition qadd (a b : qvec) : qvec := QV (qx a + qx b) (qy a + qy b) (qz a + qz b).
Definition qsub (a b : qvec) : qvec := QV (qx a - qx b) (qy a - qy b) (qz a - qz b).
Definition qscale (k : Q) (a : qvec) : qvec := QV (k * qx a) (k * qy a) (k * qz a).
Definition qdot (a b : qvec) : Q := qx a * qx b + qy a * qy b + qz a * qz b.
Definition qcross (a b : qvec) : qvec :=
  QV (qy a * qz b - qz a * qy b) (qz a * qx b - qx a * qz b) (qx a * qy b - qy a * qx b).
Definition qEqualV (a b : qvec) : bool := qEqual (qx a) (qx b) && qEqual (qy a) (qy b) && qEqual (qz a) (qz b).
Record qexp := QE { q_motion : motion; q_axis : qvec; q_origin : qvec }.
(** rows of the rotation and position *)
Record qframe := QF { q_r0 : qvec; q_r1 : qvec; q_r2 : qvec; q_p : qvec }.
Definition qmv (f : qframe) (v : qvec) : qvec := qred (QV (qdot (q_r0 f) v) (qdot (q_r1 f) v) (qdot (q_r2 f) v)).
Definition qfapp (f : qframe) (v : qvec) : qvec := qred (qadd (qmv f v) (q_p f)).
Definition qtransposed (f : qframe) (p : qvec) : qframe :=
  QF (QV (qx (q_r0 f)) (qx (q_r1 f)) (qx (q_r2 f))) (QV (qy (q_r0 f)) (qy (q_r1 f)) (qy (q_r2 f)))
     (QV (qz (q_r0 f)) (qz (q_r1 f)) (qz (q_r2 f))) p.
Definition qfinv (f : qframe) : qframe := qtransposed f (qscale (-1) (qmv (qtransposed f qzero) (q_p f))).
Record qpoe := QP { q_exps : list qexp; q_tool : qframe }.
Definition qchangeBase (e : qexp) (h : qframe) : qexp :=
  QE (q_motion e) (qmv h (q_axis e)) (match q_motion e with ROTATION => qfapp h (q_origin e) | TRANSLATION => q_origin e end).
Definition qreverseSelf (p : qpoe) : qpoe :=
  let h := qfinv (q_tool p) in QP (rev (map (fun e => qchangeBase e h) (q_exps p))) h.

(** what they stand for *)
Definition rv (v : qvec) : vec := V (Q2R (qx v)) (Q2R (qy v)) (Q2R (qz v)).
Definition re (e : qexp) : mexp := E (q_motion e) (rv (q_axis e)) (rv (q_origin e)).
Definition rf (f : qframe) : frame :=
  F (M (Q2R (qx (q_r0 f))) (Q2R (qy (q_r0 f))) (Q2R (qz (q_r0 f)))
       (Q2R (qx (q_r1 f))) (Q2R (qy (q_r1 f))) (Q2R (qz (q_r1 f)))
       (Q2R (qx (q_r2 f))) (Q2R (qy (q_r2 f))) (Q2R (qz (q_r2 f)))) (rv (q_p f)).
Definition rp (p : qpoe) : poe := P (map re (q_exps p)) (rf (q_tool p)).

(** geometric tests *)
Definition qliesOnAxis (e : qexp) (p : qvec) : bool := qEqualV (qcross (qsub p (q_origin e)) (q_axis e)) qzero.
Definition qparallelAxes (e1 e2 : qexp) : bool := qEqualV (qcross (q_axis e1) (q_axis e2)) qzero.
Definition qperpendicularAxes (e1 e2 : qexp) : bool := qEqual (qdot (q_axis e1) (q_axis e2)) 0.
Definition qcolinearAxes (e1 e2 : qexp) : bool := qparallelAxes e1 e2 && qliesOnAxis e1 (q_origin e2).
Definition qintersectingAxes (e1 e2 : qexp) : option qvec :=
  let c := qcross (q_axis e1) (q_axis e2) in
  let diff := qsub (q_origin e2) (q_origin e1) in
  let den := qdot c c in
  if Qeq_bool den 0 then None
  else
    let t := qdot c (qcross diff (q_axis e2)) / den in
    let s := qdot c (qcross diff (q_axis e1)) / den in
    let l1 := qred (qadd (q_origin e1) (qscale t (q_axis e1))) in
    let l2 := qred (qadd (q_origin e2) (qscale s (q_axis e2))) in
    if qEqualV l1 l2 then Some l1 else None.
Definition qis_rotation (e : qexp) : bool := match q_motion e with ROTATION => true | TRANSLATION => false end.
Definition qis_translation (e : qexp) : bool := negb (qis_rotation e).
Definition qplanarMovement (e1 e2 : qexp) : bool :=
  if Bool.eqb (qis_rotation e1) (qis_rotation e2) then qparallelAxes e1 e2 else qperpendicularAxes e1 e2.
Definition qnormalPlaneMovement (e1 e2 : qexp) : bool :=
  if Bool.eqb (qis_rotation e1) (qis_rotation e2) then qperpendicularAxes e1 e2 else qparallelAxes e1 e2.

(** points *)
Definition qcompare_vectors (l r : qvec) : bool :=
  if qEqual (qx l) (qx r) then
    if qEqual (qy l) (qy r) then
      if qEqual (qz l) (qz r) then false else qltb (qz l) (qz r)
    else qltb (qy l) (qy r)
  else qltb (qx l) (qx r).
Fixpoint qpt_insert (x : qvec) (l : list qvec) : option (list qvec) :=
  match l with
  | [] => Some [x]
  | y :: l' =>
      if qcompare_vectors x y then Some (x :: l)
      else if qcompare_vectors y x then option_map (cons y) (qpt_insert x l')
      else None
  end.
Definition qpt_add (x : qvec) (l : list qvec) : list qvec :=
  match qpt_insert x l with Some l' => l' | None => l end.
Definition qintersections (e : qexp) (others : list qexp) (l : list qvec) : list qvec :=
  fold_left (fun acc e2 =>
    if qis_rotation e2 && negb (qparallelAxes e e2) && negb (qcolinearAxes e e2)
    then match qintersectingAxes e e2 with Some p => qpt_add p acc | None => acc end
    else acc) others l.
Definition qaxis_points (es : list qexp) (l : list qvec) : list qvec :=
  fold_left (fun acc e =>
    if qis_rotation e then qintersections e (tl es) (qpt_add (q_origin e) acc) else acc) es l.
Fixpoint qdraw_point (e : qexp) (draws : list Q) (l : list qvec) : option (list qvec * list Q) :=
  match draws with
  | [] => None
  | f :: draws' =>
      match qpt_insert (qred (qadd (q_origin e) (qscale f (q_axis e)))) l with
      | Some l' => Some (l', draws')
      | None => qdraw_point e draws' l
      end
  end.
Fixpoint qrandom_points (es : list qexp) (draws : list Q) (l : list qvec) : option (list qvec * list Q) :=
  match es with
  | [] => Some (l, draws)
  | e :: es' =>
      if qis_rotation e then
        match qdraw_point e draws l with Some (l', draws') => qrandom_points es' draws' l' | None => None end
      else qrandom_points es' draws l
  end.
Definition qsearchPoints (p : qpoe) (draws : list Q) : option (list qvec * list Q) :=
  match qrandom_points (q_exps p) draws (qaxis_points (q_exps p) (qpt_add qzero [])) with
  | None => None
  | Some (l, draws') => Some (qpt_add (q_p (q_tool p)) l, draws')
  end.

(** terms *)
Record qterm := QT { k_exp : qexp; k_known : bool; k_simp : bool }.
Definition rt (t : qterm) : pterm := PT (re (k_exp t)) (k_known t) (k_simp t).
Definition qset_known (t : qterm) : qterm := QT (k_exp t) true (k_simp t).
Definition qset_simp (t : qterm) : qterm := QT (k_exp t) (k_known t) true.
Definition qunknownTerm (t : qterm) : bool := negb (k_known t).
Definition qknownNotSimplifiedTerm (t : qterm) : bool := k_known t && negb (k_simp t).
Definition qunknownNotSimplifiedTerm (t : qterm) : bool := negb (k_known t) && negb (k_simp t).
Definition qcount (f : qterm -> bool) (ts : list qterm) : nat := length (filter f ts).
Fixpoint qfind_first (f : qterm -> bool) (ts : list qterm) : option nat :=
  match ts with [] => None | t :: ts' => if f t then Some O else option_map S (qfind_first f ts') end.
Fixpoint qfind_last (f : qterm -> bool) (ts : list qterm) : option nat :=
  match ts with
  | [] => None
  | t :: ts' => match qfind_last f ts' with Some i => Some (S i) | None => if f t then Some O else None end
  end.
Fixpoint qchange (g : qterm -> qterm) (i : nat) (ts : list qterm) : list qterm :=
  match ts, i with
  | [], _ => []
  | t :: ts', O => g t :: ts'
  | t :: ts', S i' => t :: qchange g i' ts'
  end.
Definition qexp_at (ts : list qterm) (i : nat) : qexp := nth i (map k_exp ts) (QE ROTATION qzero qzero).
Fixpoint qmark_leading (ts : list qterm) : list qterm :=
  match ts with t :: ts' => if k_known t then qset_simp t :: qmark_leading ts' else ts | [] => [] end.
Definition qrefresh (ts : list qterm) : list qterm :=
  rev (qmark_leading (rev (qmark_leading (map (fun t => QT (k_exp t) (k_known t) false) ts)))).
Fixpoint qsimp_left (n : nat) (p : qvec) (ts : list qterm) : list qterm :=
  match n with
  | O => ts
  | S i =>
      if qis_rotation (qexp_at ts i) && qliesOnAxis (qexp_at ts i) p
      then qsimp_left i p (qchange qset_simp i ts) else ts
  end.
Definition qsimplifyPK1 (p : qvec) (ts : list qterm) : list qterm :=
  match qfind_last qunknownTerm ts with None => ts | Some i => qsimp_left (S i) p ts end.
Fixpoint qsimp_right (k i : nat) (p : qvec) (ts : list qterm) : list qterm :=
  match k with
  | O => ts
  | S k' =>
      if qis_rotation (qexp_at ts i) && qliesOnAxis (qexp_at ts i) p
      then qsimp_right k' (S i) p (qchange qset_simp i ts) else ts
  end.
Definition qsimplifyPK3 (p : qvec) (ts : list qterm) : list qterm :=
  match qfind_first qunknownTerm ts with None => ts | Some i => qsimp_right (length ts - i) i p ts end.
Fixpoint qplane_right (ts : list qterm) (idStart i : nat) : bool :=
  if Nat.eqb i idStart then qnormalPlaneMovement (qexp_at ts idStart) (qexp_at ts (S i))
  else qplanarMovement (qexp_at ts i) (qexp_at ts (S i)) &&
       match i with O => false | S i' => qplane_right ts idStart i' end.
Fixpoint qplane_left (ts : list qterm) (idEnd k i : nat) : bool :=
  if Nat.eqb i idEnd then qnormalPlaneMovement (qexp_at ts (i - 1)) (qexp_at ts idEnd)
  else qplanarMovement (qexp_at ts (i - 1)) (qexp_at ts i) &&
       match k with O => false | S k' => qplane_left ts idEnd k' (S i) end.
Definition qsimp_range (lo len : nat) (ts : list qterm) : list qterm :=
  fold_left (fun acc j => qchange qset_simp j acc) (seq lo len) ts.
Definition qsimplifyPG1 (ts : list qterm) : list qterm :=
  match qfind_first qunknownNotSimplifiedTerm ts, qfind_last qunknownNotSimplifiedTerm ts with
  | Some idStart, Some idEnd =>
      if Nat.leb idEnd idStart then ts
      else if qis_translation (qexp_at ts idStart) then
        if qplane_right ts idStart (idEnd - 1) then qsimp_range (S idStart) (idEnd - idStart) ts else ts
      else if qis_translation (qexp_at ts idEnd) then
        if qplane_left ts idEnd (idEnd - idStart - 1) (S idStart) then qsimp_range idStart (idEnd - idStart) ts else ts
      else ts
  | _, _ => ts
  end.
Definition qsimplify (depth : nat) (p0 p1 : qvec) (ts : list qterm) : list qterm :=
  let ts1 := qsimplifyPK1 p0 ts in
  if Nat.eqb depth 1 then qsimplifyPK3 p1 ts1
  else if existsb (fun t => qis_translation (k_exp t)) ts1 then qsimplifyPG1 ts1 else ts1.

(** the search *)
Inductive qsubp :=
| QPK1 (id : nat) (e : qexp) (p : qvec)
| QPK2 (id1 id2 : nat) (e1 e2 : qexp) (p r : qvec)
| QPK3 (id : nat) (e : qexp) (p k : qvec)
| QPG1 (id : nat) (e : qexp) (p : qvec)
| QPG2 (id1 id2 : nat) (e1 e2 : qexp) (p : qvec)
| QPG3 (id : nat) (e : qexp) (p k : qvec)
| QPG4 (id1 id2 : nat) (e1 e2 : qexp) (p : qvec).
Definition rs (s : qsubp) : sub :=
  match s with
  | QPK1 id e p => SPK1 id (re e) (rv p)
  | QPK2 id1 id2 e1 e2 p r => SPK2 id1 id2 (re e1) (re e2) (rv p) (rv r)
  | QPK3 id e p k => SPK3 id (re e) (rv p) (rv k)
  | QPG1 id e p => SPG1 id (re e) (rv p)
  | QPG2 id1 id2 e1 e2 p => SPG2 id1 id2 (re e1) (re e2) (rv p)
  | QPG3 id e p k => SPG3 id (re e) (rv p) (rv k)
  | QPG4 id1 id2 e1 e2 p => SPG4 id1 id2 (re e1) (re e2) (rv p)
  end.
Inductive qattempt := QSolved (s : qsubp) (ts : list qterm) | QNotYet | QInvalid.
Definition qtrySolve (depth : nat) (p0 p1 : qvec) (ts : list qterm) : qattempt :=
  let unknowns := qcount qunknownNotSimplifiedTerm ts in
  if Nat.eqb unknowns 0 || Nat.ltb 2 unknowns then QNotYet
  else
    match qfind_last qunknownNotSimplifiedTerm ts with
    | None => QInvalid
    | Some l =>
        let e := qexp_at ts l in
        if Nat.eqb unknowns 1 then
          if Nat.eqb depth 0 then
            if qis_rotation e && negb (qliesOnAxis e p0) then QSolved (QPK1 l e p0) (qchange qset_known l ts)
            else if qis_translation e then QSolved (QPG1 l e p0) (qchange qset_known l ts)
            else QNotYet
          else if Nat.eqb depth 1 then
            if existsb qknownNotSimplifiedTerm ts then QNotYet
            else if qis_rotation e && negb (qliesOnAxis e p0) && negb (qliesOnAxis e p1)
            then QSolved (QPK3 l e p0 p1) (qchange qset_known l ts)
            else if qis_translation e then QSolved (QPG3 l e p0 p1) (qchange qset_known l ts)
            else QNotYet
          else QNotYet
        else
          match l with
          | O => QInvalid
          | S l0 =>
              match nth_error ts l0 with
              | None => QInvalid
              | Some t0 =>
                  if negb (qunknownNotSimplifiedTerm t0) then QNotYet
                  else
                    let e0 := qexp_at ts l0 in
                    let both := qchange qset_known l0 (qchange qset_known l ts) in
                    if Nat.eqb depth 0 then
                      match (if qis_rotation e && qis_rotation e0 && negb (qparallelAxes e e0)
                             then qintersectingAxes e e0 else None) with
                      | Some r => QSolved (QPK2 l0 l e0 e p0 r) both
                      | None =>
                          if qis_translation e && qis_translation e0 && negb (qparallelAxes e e0)
                          then QSolved (QPG2 l0 l e0 e p0) both
                          else if qis_rotation e && qis_rotation e0 && qparallelAxes e e0 && negb (qcolinearAxes e e0)
                          then QSolved (QPG4 l0 l e0 e p0) both
                          else QNotYet
                      end
                    else QNotYet
              end
          end
    end.
Record qstate := QS {
  qs_i0 : nat; qs_i1 : nat; qs_p0 : qvec; qs_p1 : qvec; qs_depth : nat; qs_terms : list qterm; qs_steps : list qsubp }.
Definition rst (st : qstate) : search_state :=
  Sr (qs_i0 st) (qs_i1 st) (rv (qs_p0 st)) (rv (qs_p1 st)) (qs_depth st) (map rt (qs_terms st)) (map rs (qs_steps st)).
Definition qadvance (pts : list qvec) (st : qstate) : qstate :=
  let first := nth 0 pts qzero in
  let i0 := S (qs_i0 st) in
  if Nat.eqb i0 (length pts) then
    if Nat.eqb (qs_depth st) 0 then QS 0 (qs_i1 st) first (qs_p1 st) 1 (qs_terms st) (qs_steps st)
    else
      let i1 := S (qs_i1 st) in
      if Nat.eqb i1 (length pts) then
        QS 0 0 first first (if Nat.eqb (qs_depth st) 1 then 2%nat else qs_depth st) (qs_terms st) (qs_steps st)
      else QS 0 i1 first (nth i1 pts qzero) (qs_depth st) (qs_terms st) (qs_steps st)
  else QS i0 (qs_i1 st) (nth i0 pts qzero) (qs_p1 st) (qs_depth st) (qs_terms st) (qs_steps st).
Definition qsearch_body (pts : list qvec) (st : qstate) : option qstate :=
  let ts := qsimplify (qs_depth st) (qs_p0 st) (qs_p1 st) (qrefresh (qs_terms st)) in
  match qtrySolve (qs_depth st) (qs_p0 st) (qs_p1 st) ts with
  | QInvalid => None
  | QSolved s ts' => Some (QS 0 0 (nth 0 pts qzero) (qs_p1 st) 0 ts' (qs_steps st ++ [s]))
  | QNotYet => Some (qadvance pts (QS (qs_i0 st) (qs_i1 st) (qs_p0 st) (qs_p1 st) (qs_depth st) ts (qs_steps st)))
  end.
Definition rout {A B} (f : A -> B) (o : outcome A) : outcome B :=
  match o with Returns a => Returns (f a) | Running => Running | Undefined => Undefined end.
Fixpoint qsearch_loop (fuel : nat) (pts : list qvec) (st : qstate) : outcome qstate :=
  match fuel with
  | O => Running
  | S fuel' =>
      match qsearch_body pts st with
      | None => Undefined
      | Some st' =>
          if Nat.ltb (qs_depth st') 2 && negb (Nat.eqb (qcount qunknownTerm (qs_terms st')) 0)
          then qsearch_loop fuel' pts st' else Returns st'
      end
  end.
Definition qsearchSolutions (fuel : nat) (pts : list qvec) (es : list qexp) : outcome (list qterm * list qsubp) :=
  let first := nth 0 pts qzero in
  match qsearch_loop fuel pts (QS 0 0 first first 0 (map (fun e => QT e false false) es) []) with
  | Returns st => Returns (qs_terms st, qs_steps st)
  | Running => Running
  | Undefined => Undefined
  end.
Definition qbuild_with (fuel : nat) (pts pts_rev : option (list qvec)) (p : qpoe) : outcome (option (qpoe * list qsubp * bool)) :=
  match option_map (fun l => qsearchSolutions fuel l (q_exps p)) pts with
  | None | Some Running => Running
  | Some Undefined => Undefined
  | Some (Returns (ts, ss)) =>
      if Nat.eqb (qcount k_known ts) (length (q_exps p)) then Returns (Some (p, ss, false))
      else
        let p' := qreverseSelf p in
        match option_map (fun l => qsearchSolutions fuel l (q_exps p')) pts_rev with
        | None | Some Running => Running
        | Some Undefined => Undefined
        | Some (Returns (ts', ss')) =>
            if Nat.eqb (qcount k_known ts') (length (q_exps p')) then Returns (Some (p', ss', true)) else Returns None
        end
  end.
Definition qbuild (fuel : nat) (draws : list Q) (p : qpoe) : outcome (option (qpoe * list qsubp * bool)) :=
  match qsearchPoints p draws with
  | None => Running
  | Some (pts, draws') => qbuild_with fuel (Some pts) (option_map fst (qsearchPoints (qreverseSelf p) draws')) p
  end.
