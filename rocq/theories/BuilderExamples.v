(** Runs of the search of subproblems. *)
From Coq Require Import Reals List Bool Arith Lia Lra Permutation.
From Verif Require Import Kdl KdlFacts Screw ScrewFacts Trig TrigFacts Subproblems IkProblem IkSpec IkProblemFacts IkProblemFacts2 IkProblemFacts3 Builder BuilderSpec BuilderFacts BuilderFacts2.
Import ListNotations.
Open Scope R_scope.
Local Notation S := Datatypes.S.

(** decides a geometric test on numbers *)
Ltac decide_test :=
  unfold liesOnAxis, parallelAxes, perpendicularAxes, colinearAxes, compare_vectors, EqualV, Equal, kdl_eps, Rltb, cross, vsub, vadd, vscale, vneg, dot;
  cbn [vx vy vz vzero e_axis e_origin e_motion];
  repeat match goal with |- context [Rlt_dec ?a ?b] => destruct (Rlt_dec a b); try (exfalso; lra) end; reflexivity.

(** ** Two sliders and a rotary joint in one plane *)
Definition g0 : mexp := E TRANSLATION (V 0 0 1) vzero.
Definition g1 : mexp := E TRANSLATION (V 1 0 0) vzero.
Definition g2 : mexp := E ROTATION (V 0 1 0) (V 1 0 0).
Definition gantry : poe := P [g0; g1; g2] fid.
Definition gp1 := V 1 0 0.
Definition gp2 := V 1 (/ 2) 0.
Definition gantry_steps : list sub := [SPG1 0 g0 vzero; SPG1 1 g1 gp1; SPK1 2 g2 vzero].

Lemma gantry_points : forall rest, searchPoints gantry (/ 2 :: rest) = Some ([vzero; gp1; gp2], rest).
Proof.
  intros rest. unfold searchPoints. cbn [exps gantry tool fp fid].
  assert (C1 : compare_vectors gp1 vzero = false) by (unfold gp1; decide_test).
  assert (C2 : compare_vectors vzero gp1 = true) by (unfold gp1; decide_test).
  assert (C3 : compare_vectors gp2 vzero = false) by (unfold gp2; decide_test).
  assert (C4 : compare_vectors vzero gp2 = true) by (unfold gp2; decide_test).
  assert (C5 : compare_vectors gp2 gp1 = false) by (unfold gp1, gp2; decide_test).
  assert (C6 : compare_vectors gp1 gp2 = true) by (unfold gp1, gp2; decide_test).
  assert (C7 : compare_vectors vzero vzero = false) by decide_test.
  assert (PP : parallelAxes g2 g2 = true) by (unfold g2; decide_test).
  change (e_origin g2) with gp1.
  assert (A : axis_points [g0; g1; g2] (pt_add vzero []) = [vzero; gp1]).
  { unfold axis_points. cbn [fold_left]. change (pt_add vzero []) with [vzero].
    cbn [tl]. change (is_rotation g0) with false. change (is_rotation g1) with false. change (is_rotation g2) with true. cbv iota.
    change (e_origin g2) with gp1. unfold pt_add. cbn [pt_insert]. rewrite C1, C2. cbn [option_map].
    unfold intersections. cbn [fold_left]. change (is_rotation g1) with false. cbn [andb]. change (is_rotation g2) with true.
    rewrite PP. reflexivity. }
  rewrite A. cbn [random_points]. change (is_rotation g0) with false. change (is_rotation g1) with false.
  change (is_rotation g2) with true. cbn [draw_point].
  replace (vadd (e_origin g2) (vscale (/ 2) (e_axis g2))) with gp2 by (unfold gp2, g2, vadd, vscale; cbn; f_equal; lra).
  cbn [pt_insert]. rewrite C3, C4, C5, C6. cbn [option_map].
  unfold pt_add. cbn [pt_insert]. rewrite C7. reflexivity.
Qed.

Lemma gantry_built : forall rest rev_pts,
  build_with 5 (Some [vzero; gp1; gp2]) rev_pts gantry = Returns (Some (gantry, gantry_steps, false)) /\
  build 5 (/ 2 :: rest) gantry = Returns (Some (gantry, gantry_steps, false)).
Proof.
  assert (M : forall rp, build_with 5 (Some [vzero; gp1; gp2]) rp gantry = Returns (Some (gantry, gantry_steps, false))).
  { intros rp. unfold build_with. cbn [option_map].
    assert (L0 : liesOnAxis g2 vzero = false) by (unfold g2; decide_test).
    assert (L1 : liesOnAxis g2 gp1 = true) by (unfold g2, gp1; decide_test).
    assert (P1 : perpendicularAxes g1 g2 = true) by (unfold g1, g2; decide_test).
    assert (P0 : perpendicularAxes g0 g1 = true) by (unfold g1, g0; decide_test).
    assert (Q1 : parallelAxes g1 g2 = false) by (unfold g1, g2; decide_test).
    assert (B1 : searchSolutions 5 [vzero; gp1; gp2] (exps gantry) =
       Returns ([PT g0 true true; PT g1 true true; PT g2 true false], gantry_steps)); [|rewrite B1; reflexivity].
    unfold searchSolutions. cbn [exps gantry map nth].
    (* first step *)
    cbn [search_loop]. unfold search_body at 1. cbn [sr_depth sr_p0 sr_p1 sr_terms sr_i0 sr_i1 sr_steps].
    assert (S1 : simplify 0 vzero vzero (refresh [PT g0 false false; PT g1 false false; PT g2 false false]) =
                 [PT g0 false false; PT g1 false true; PT g2 false true]).
    { unfold simplify, simplifyPK1. cbn [refresh map mark_leading t_known t_exp rev app find_last unknownTerm negb simp_left].
      unfold exp_at. cbn [map nth t_exp]. change (is_rotation g2) with true. rewrite L0. cbn [andb Nat.eqb existsb t_exp].
      change (is_translation g0) with true. cbn [orb]. unfold simplifyPG1.
      cbn [find_first find_last unknownNotSimplifiedTerm t_known t_simp negb andb Nat.leb].
      unfold exp_at. cbn [map nth t_exp]. change (is_translation g0) with true. cbv iota.
      cbn [Nat.sub plane_right Nat.eqb]. unfold exp_at. cbn [map nth t_exp].
      unfold planarMovement, normalPlaneMovement. change (is_rotation g0) with false. change (is_rotation g1) with false.
      change (is_rotation g2) with true. cbn [Bool.eqb]. rewrite P0, P1. reflexivity. }
    rewrite S1. unfold trySolve at 1. cbn [count filter unknownNotSimplifiedTerm t_known t_simp negb andb length Nat.eqb Nat.ltb Nat.leb orb find_last exp_at map nth t_exp].
    change (is_rotation g0) with false. change (is_translation g0) with true. cbn [andb change set_known t_exp t_known t_simp sr_depth sr_terms app]. cbv [set_known]. cbn [t_exp t_known t_simp].
    cbn [count filter unknownTerm t_known negb length Nat.eqb Nat.ltb Nat.leb andb].
    (* no progress with the first point *)
    unfold search_body at 1. cbn [sr_depth sr_p0 sr_p1 sr_terms sr_i0 sr_i1 sr_steps].
    assert (S2 : simplify 0 vzero vzero (refresh [PT g0 true false; PT g1 false true; PT g2 false true]) =
                 [PT g0 true true; PT g1 false false; PT g2 false false]).
    { unfold simplify, simplifyPK1. cbn [refresh map mark_leading t_known t_exp t_simp set_simp rev app find_last unknownTerm negb simp_left].
      cbv [set_simp]. cbn [map mark_leading t_known t_exp t_simp rev app find_last unknownTerm negb simp_left].
      unfold exp_at. cbn [map nth t_exp]. change (is_rotation g2) with true. rewrite L0. cbn [andb Nat.eqb existsb t_exp].
      change (is_translation g0) with true. cbn [orb]. unfold simplifyPG1.
      cbn [find_first find_last unknownNotSimplifiedTerm t_known t_simp negb andb Nat.leb option_map].
      unfold exp_at. cbn [map nth t_exp]. change (is_translation g1) with true. cbv iota.
      cbn [Nat.sub plane_right Nat.eqb]. unfold exp_at. cbn [map nth t_exp].
      unfold planarMovement, normalPlaneMovement. change (is_rotation g1) with false.
      change (is_rotation g2) with true. cbn [Bool.eqb]. rewrite Q1. reflexivity. }
    rewrite S2. unfold trySolve at 1. cbn [count filter unknownNotSimplifiedTerm t_known t_simp negb andb length Nat.eqb Nat.ltb Nat.leb orb find_last exp_at map nth nth_error t_exp].
    change (is_rotation g2) with true. change (is_rotation g1) with false. change (is_translation g2) with false. cbn [andb].
    unfold advance. cbn [sr_depth sr_p0 sr_p1 sr_terms sr_i0 sr_i1 sr_steps length Nat.eqb nth].
    cbn [sr_depth sr_p0 sr_p1 sr_terms sr_i0 sr_i1 sr_steps count filter unknownTerm t_known negb length Nat.eqb Nat.ltb Nat.leb andb].
    (* second step *)
    unfold search_body at 1. cbn [sr_depth sr_p0 sr_p1 sr_terms sr_i0 sr_i1 sr_steps].
    assert (S3 : simplify 0 gp1 vzero (refresh [PT g0 true true; PT g1 false false; PT g2 false false]) =
                 [PT g0 true true; PT g1 false false; PT g2 false true]).
    { unfold simplify, simplifyPK1. cbn [refresh map mark_leading t_known t_exp t_simp set_simp rev app find_last unknownTerm negb simp_left].
      cbv [set_simp]. cbn [map mark_leading t_known t_exp t_simp rev app find_last unknownTerm negb simp_left].
      unfold exp_at. cbn [map nth t_exp]. change (is_rotation g2) with true. rewrite L1. cbn [andb change set_simp t_exp t_known]. cbv [set_simp].
      cbn [map nth t_exp t_known t_simp]. change (is_rotation g1) with false. cbn [andb Nat.eqb existsb t_exp].
      change (is_translation g0) with true. cbn [orb]. unfold simplifyPG1.
      cbn [find_first find_last unknownNotSimplifiedTerm t_known t_simp negb andb Nat.leb option_map]. reflexivity. }
    rewrite S3. unfold trySolve at 1. cbn [count filter unknownNotSimplifiedTerm t_known t_simp negb andb length Nat.eqb Nat.ltb Nat.leb orb find_last exp_at map nth nth_error t_exp].
    change (is_rotation g1) with false. change (is_translation g1) with true. cbn [andb change set_known t_exp t_known t_simp sr_depth sr_terms app]. cbv [set_known]. cbn [t_exp t_known t_simp].
    cbn [count filter unknownTerm t_known negb length Nat.eqb Nat.ltb Nat.leb andb].
    (* third step *)
    unfold search_body at 1. cbn [sr_depth sr_p0 sr_p1 sr_terms sr_i0 sr_i1 sr_steps].
    assert (S4 : simplify 0 vzero vzero (refresh [PT g0 true true; PT g1 true false; PT g2 false true]) =
                 [PT g0 true true; PT g1 true true; PT g2 false false]).
    { unfold simplify, simplifyPK1. cbn [refresh map mark_leading t_known t_exp t_simp set_simp rev app find_last unknownTerm negb simp_left].
      cbv [set_simp]. cbn [map mark_leading t_known t_exp t_simp rev app find_last unknownTerm negb simp_left].
      unfold exp_at. cbn [map nth t_exp]. change (is_rotation g2) with true. rewrite L0. cbn [andb Nat.eqb existsb t_exp].
      change (is_translation g0) with true. cbn [orb]. reflexivity. }
    rewrite S4. unfold trySolve at 1. cbn [count filter unknownNotSimplifiedTerm t_known t_simp negb andb length Nat.eqb Nat.ltb Nat.leb orb find_last exp_at map nth nth_error t_exp].
    change (is_rotation g2) with true. rewrite L0. cbn [andb negb change set_known t_exp t_known t_simp sr_depth sr_terms app]. cbv [set_known]. cbn [t_exp t_known t_simp].
    reflexivity. }
  intros rest rp. split; [apply M|]. unfold build. rewrite gantry_points. apply M.
Qed.
