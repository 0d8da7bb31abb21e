(** Witnesses and examples for the parameters and the control cycles on doubles. *)
From Coq Require Import List ZArith Reals Lra Lia.
From Flocq Require Import Core IEEE754.BinarySingleNaN.
From Verif Require Import F64 F64Facts F64More Rounded RoundedSpec RoundedFacts RoundedExamples Vocab CycleF64 CycleF64Spec CycleF64Facts.
Import ListNotations.
Open Scope R_scope.

(** the default parameters (DeviceDriverImpl.cpp 13-17) *)
Definition defaults : params := Params (lit 5 2) (ofZ 10) 50 30 BASE_FRAME 0.
Lemma defaults_in_order : in_order defaults.
Proof. split; vm_compute; reflexivity. Qed.
Definition granted : Z -> bool := fun _ => true.

Theorem parameters_nan : exists p, in_order p /\
  (exists p', setParameter true granted p Gain fnan = Set_to p' /\ ~ in_order p') /\
  (exists p', setParameter true granted p TrajDuration fnan = Set_to p' /\ ~ in_order p') /\
  setParameter true granted p WaitPeriod fnan = Undefined /\
  setParameter true granted p WaitPeriod (ofZ 3000000000) = Undefined.
Proof.
  exists defaults. split; [exact defaults_in_order|]. split; [|split; [|split; reflexivity]].
  - eexists. split; [reflexivity|]. intros (G & _). discriminate G.
  - eexists. split; [reflexivity|]. intros (_ & D). discriminate D.
Qed.

(** a history of calls: a gain of 0.1, a negative duration that is refused, a wait period of 20.5 ms and a duration of 5 s *)
Example settings_example : let calls := [(true, granted, Gain, lit 1 1); (true, granted, TrajDuration, ofZ (-1)); (true, granted, WaitPeriod, lit 205 1); (true, granted, TrajDuration, ofZ 5)] in
  in_order defaults /\ Forall (fun c => isnan (snd c) = false) calls /\ settings defaults calls = Some (Params (lit 1 1) (ofZ 5) 50 20 BASE_FRAME 0).
Proof. intro calls. split; [exact defaults_in_order|]. split; [repeat constructor|].
  assert (A : fltb (lit 1 1) fzero = false) by (vm_compute; reflexivity). assert (B : fleb (ofZ (-1)) fzero = true) by (vm_compute; reflexivity).
  assert (C : fleb (lit 205 1) fzero = false) by (vm_compute; reflexivity). assert (D : fleb (ofZ 5) fzero = false) by (vm_compute; reflexivity).
  assert (T : to_int (lit 205 1) = Some 20%Z) by (vm_compute; reflexivity).
  unfold calls. cbn [settings setParameter defaults]. rewrite A, B, C, T, D. reflexivity.
Qed.
(** a period of 20.5 ms *)
Example defined_example : finite (lit 205 1) = true /\ Rabs (val (lit 205 1)) < 2147483648 /\
  setParameter true granted defaults CmcPeriod (lit 205 1) = Set_to (Params (lit 5 2) (ofZ 10) 20 30 BASE_FRAME 0).
Proof.
  split; [reflexivity|]. split.
  2: { assert (T : to_int (lit 205 1) = Some 20%Z) by (vm_compute; reflexivity). cbn [setParameter negb]. rewrite T. reflexivity. }
  destruct (ofZ_ok 10000 ltac:(lia)) as (F & V).
  assert (A : val (lit 205 1) < val (ofZ 10000)) by (apply fltb_val; vm_compute; reflexivity). assert (B : val fzero < val (lit 205 1)) by (apply fltb_val; vm_compute; reflexivity).
  rewrite V in A. change (val fzero) with 0 in B. rewrite Rabs_pos_eq; lra.
Qed.

(** a line along x of 0.8 m, from the pose of the tool; and an arm whose joint angle in degrees is a hundred times x *)
Definition along : path := Path (lit 8 1) (fun s => [s; fzero; fzero; fzero; fzero; fzero]) (fun _ v => [v; fzero; fzero; fzero; fzero; fzero]).
Definition hundred (x q : list f64) : option (list f64) := match x with a :: _ => Some [fmul a (ofZ 100)] | [] => None end.
Definition forward (q : list f64) : option (list f64) := match q with a :: _ => Some [fdiv a (ofZ 100); fzero; fzero; fzero; fzero; fzero] | [] => None end.
Definition jacobian (q : list f64) : list (list f64) := [[ofZ 100; fzero; fzero; fzero; fzero; fzero]].
Lemma along_length : a_length (len along).
Proof.
  cbn [along len]. split; [reflexivity|]. destruct (ofZ_ok 1 ltac:(lia)) as (F & V).
  assert (A : val (lit 8 1) < val (ofZ 1)) by (apply fltb_val; vm_compute; reflexivity). assert (B : val (lit 1 1) < val (lit 8 1)) by (apply fltb_val; vm_compute; reflexivity).
  assert (C : / 100000000000000000000 <= val (lit 1 1)). { unfold lit. destruct (ofZ_ok 10 ltac:(lia)) as (F' & V'). change (10 ^ 1)%Z with 10%Z.
    destruct (fdiv_ok (ofZ 1) (ofZ 10) F) as (_ & W); [lra|rewrite V, V'; pose proof huge_big; apply Rabs_le; lra|]. rewrite W, V, V'. apply Rle_trans with (bpow radix2 (-4)); [cbn; lra|]. apply rnd_low; [lia|]. cbn. lra. }
  rewrite V in A. lra.
Qed.

(** the duration is set to NaN, and the first cycle of the line asks the joint, at 0 degrees, for 80 *)
Theorem line_leaps : exists w js p p' q a, Forall sane js /\ in_order p /\ a_length (len w) /\
  setParameter true granted p TrajDuration fnan = Set_to p' /\
  hundred (pose_on w fzero) q = Some q /\
  run forward differences (fun q x => Some (matrix_times (jacobian q) x)) hundred js p' [line w (p_duration p')] false true fzero q = Positions a /\
  map val q = [0] /\ map val a = [80].
Proof.
  exists along, [elbow], defaults, (Params (lit 5 2) fnan 50 30 BASE_FRAME 0), [fzero], [ofZ 80].
  split; [exact elbow_sane|]. split; [exact defaults_in_order|]. split; [exact along_length|]. split; [reflexivity|].
  split. { cbn [along pose_on hundred]. assert (Z : fmul fzero (ofZ 100) = fzero) by (apply of_sf; vm_compute; reflexivity). now rewrite Z. }
  split.
  - assert (E : forall x y : f64, B2SF x = B2SF y -> Positions [x] = Positions [y]) by (intros x y H; now rewrite (of_sf x y H)).
    unfold run. replace (checkJointLimits [elbow] [fzero]) with true by (vm_compute; reflexivity). cbn [negb]. cbn [p_duration].
    change [line along fnan] with (map (fun w => line w fnan) [along]). rewrite line_jumps by reflexivity. cbn [map concat app along pose_on len hundred]. apply E. vm_compute. reflexivity.
  - destruct (ofZ_ok 80 ltac:(lia)) as (_ & V). cbn [map]. rewrite V. change (val fzero) with 0. split; reflexivity.
Qed.
(** with the default duration the first cycle asks it to stay *)
Example starts_example : a_length (len along) /\ fltb fzero (p_duration defaults) = true /\
  run forward differences (fun q x => Some (matrix_times (jacobian q) x)) hundred [elbow] defaults [line along (p_duration defaults)] false true fzero [fzero] = Positions [fzero].
Proof.
  split; [exact along_length|]. split; [vm_compute; reflexivity|]. assert (E : forall x y : f64, B2SF x = B2SF y -> Positions [x] = Positions [y]) by (intros x y H; now rewrite (of_sf x y H)).
  unfold run. replace (checkJointLimits [elbow] [fzero]) with true by (vm_compute; reflexivity). cbn [negb]. unfold handleMovlPosd.
  replace (ended [line along (p_duration defaults)] fzero) with false by (vm_compute; reflexivity). cbn [map concat app line m_pos along pose_on hundred]. apply E. vm_compute. reflexivity.
Qed.

(** a line that is asked to last a tenth of a second lasts longer, and is over after a second *)
Example lasts_example : a_length (len along) /\ fltb fzero (lit 1 1) = true /\ fltb (m_duration (line along (lit 1 1))) (ofZ 1) = true /\ fltb (m_duration (line along (lit 1 1))) (lit 5 1) = false.
Proof. split; [exact along_length|]. repeat split; vm_compute; reflexivity. Qed.

(** the gain is set to NaN, and the first cycle of the line in velocity mode sends NaN *)
Theorem gain_leaps : exists p p' t, in_order p /\ Forall sane [elbow] /\ setParameter true granted p Gain fnan = Set_to p' /\ fltb fzero t = true /\
  run forward differences (fun q x => Some (matrix_times (jacobian q) x)) hundred [elbow] p' [line along (p_duration p')] false false t [fzero] = Velocities [fnan].
Proof.
  exists defaults, (Params fnan (ofZ 10) 50 30 BASE_FRAME 0), (ofZ 1). split; [exact defaults_in_order|]. split; [exact elbow_sane|]. split; [reflexivity|].
  split; [vm_compute; reflexivity|]. apply (gain_nan forward differences jacobian) with (currentX := [fdiv fzero (ofZ 100); fzero; fzero; fzero; fzero; fzero]); try reflexivity.
  - right. constructor; [vm_compute; reflexivity|constructor].
  - cbn. lia.
  - constructor; [reflexivity|constructor].
Qed.
(** with the default gain the velocity after one second is a number of degrees per second within the limits *)
Example speeds_example : Forall sane [elbow] /\ exists v,
  run forward differences (fun q x => Some (matrix_times (jacobian q) x)) hundred [elbow] defaults [line along (p_duration defaults)] false false (ofZ 1) [fzero] = Velocities [v] /\
  fltb (ofZ 4) v = true /\ fltb v (ofZ 6) = true.
Proof.
  split; [exact elbow_sane|]. 
  unfold run. replace (checkJointLimits [elbow] [fzero]) with true by (vm_compute; reflexivity). cbn [negb]. unfold handleMovlVel.
  replace (ended [line along (p_duration defaults)] (ofZ 1)) with false by (vm_compute; reflexivity). unfold command. cbn [forward].
  match goal with |- exists v, (if ?b then _ else _) = _ /\ _ => replace b with true by (vm_compute; reflexivity) end.
  eexists. split; [reflexivity|]. split; vm_compute; reflexivity.
Qed.
