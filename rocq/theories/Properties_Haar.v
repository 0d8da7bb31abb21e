(** Properties of haarDetectionController (C95, C96). *)
From Coq Require Import Reals Lra List ZArith.
From Verif Require Import Kdl KdlFacts Vocab Haar HaarSpec HaarFacts.
Import ListNotations.
Open Scope R_scope.

(** C95: while the program runs, the motion in force is always the one asked for by the last reading made of two numbers:
    none when the object is centred or nothing was read, otherwise across the image and forwards. *)
Theorem C95_follows : forall e cs0 s evs, h_configure e = (cs0, Some s) -> h_noMove e = false -> (h_sensors e = true -> ~ target_seen evs) ->
  in_force (cs0 ++ h_run s evs) =
  match last_reading evs with
  | None => None
  | Some (x, y) => if Req_EM_T x 0 then if Req_EM_T y 0 then None else Some [x * / 10000; - (y * / 10000); if h_noApproach e then 0 else / 100; 0; 0; 0]
                   else Some [x * / 10000; - (y * / 10000); if h_noApproach e then 0 else / 100; 0; 0; 0]
  end.
Proof. exact follows. Qed.
Print Assumptions C95_follows.
(** the object is seen to the right, a broken reading follows, then it is seen above the centre *)
Example C95_follows_ex : exists evs, h_configure all_fine = ([HAct VOCAB_CC_ACTUATOR_OPEN_GRIPPER; HFrame TCP_FRAME], Some (HSt true true (Grabber true false))) /\
  ~ target_seen evs /\ last_reading evs = Some (0, 50) /\
  in_force ([HAct VOCAB_CC_ACTUATOR_OPEN_GRIPPER; HFrame TCP_FRAME] ++ h_run (HSt true true (Grabber true false)) evs) =
  Some [0 * / 10000; - (50 * / 10000); / 100; 0; 0; 0].
Proof.
  exists [HRead [100; 0]; HUpdate false []; HRead [1; 2; 3]; HRead [0; 50]].
  assert (T : ~ target_seen [HRead [100; 0]; HUpdate false []; HRead [1; 2; 3]; HRead [0; 50]]).
  { intros [n H]. cbn in H. intuition discriminate. }
  split; [exact fine_open|]. split; [exact T|]. split; [reflexivity|].
  rewrite (C95_follows all_fine _ _ _ fine_open eq_refl (fun _ => T)). cbn.
  destruct (Req_EM_T 0 0); [|lra]. destruct (Req_EM_T 50 0); [lra|reflexivity].
Qed.
Print Assumptions C95_follows_ex.

(** C96: however the run ends, nothing is in force afterwards, *)
Theorem C96_rest : forall e cs0 s evs, h_configure e = (cs0, Some s) -> in_force (cs0 ++ fst (h_life s evs)) = None.
Proof. exact at_rest. Qed.
Print Assumptions C96_rest.
Example C96_rest_ex : in_force (fst (h_life (HSt true true (Grabber true false)) [HRead [100; 0]])) = None /\
  h_run (HSt true true (Grabber true false)) [HRead [100; 0]] <> [].
Proof.
  split; [apply (C96_rest all_fine _ _ [HRead [100; 0]] fine_open)|]. cbn; unfold h_read; cbn. rewrite abs_pos, (proj2 (Reqb_false 100 0)) by lra. cbn.
  destruct (Rltb 0 (Rabs 0)); discriminate.
Qed.
Print Assumptions C96_rest_ex.

(** the gripper is closed exactly when the proximity sensor reports a target, after the robot was stopped, and no command
    follows; readings that come later change nothing, *)
Theorem C96_grasp : forall e cs0 s evs, h_configure e = (cs0, Some s) -> h_sensors e = true ->
  (exists before n after, evs = before ++ HUpdate true n :: after /\
     h_life s evs = (h_run s before ++ HStop :: repeat (HAct VOCAB_CC_ACTUATOR_CLOSE_GRIPPER) (length n), true) /\
     forall a, ~ In (HAct a) (h_run s before)) \/
  (~ target_seen evs /\ h_life s evs = (h_run s evs ++ [HStop], false) /\ forall a, ~ In (HAct a) (h_run s evs)).
Proof. exact grasp. Qed.
Print Assumptions C96_grasp.
Example C96_grasp_ex : h_life (HSt true true (Grabber true false)) [HUpdate false []; HUpdate true [[[100; 0]]; []]; HRead [100; 0]] =
  ([HStop; HAct VOCAB_CC_ACTUATOR_CLOSE_GRIPPER; HAct VOCAB_CC_ACTUATOR_CLOSE_GRIPPER], true).
Proof. reflexivity. Qed.
Print Assumptions C96_grasp_ex.

(** with noMove, and whenever the start fails, no twist is ever sent, *)
Theorem C96_no_move : forall e cs0 s evs v, h_configure e = (cs0, Some s) -> h_noMove e = true -> ~ In (HTwist v) (cs0 ++ fst (h_life s evs)).
Proof. exact no_move. Qed.
Print Assumptions C96_no_move.
Example C96_no_move_ex : exists cs s, h_configure (HEnv true true false true true true true true) = (cs, Some s) /\
  fst (h_life s [HRead [100; 0]]) = [HStop].
Proof. exists [HAct VOCAB_CC_ACTUATOR_OPEN_GRIPPER], (HSt true false (Grabber true false)). split; reflexivity. Qed.
Print Assumptions C96_no_move_ex.
Theorem C96_failed : forall e cs0 v, h_configure e = (cs0, None) -> ~ In (HTwist v) cs0.
Proof. exact failed. Qed.
Print Assumptions C96_failed.
Example C96_failed_ex : exists cs, h_configure (HEnv true false false true true true true false) = (cs, None) /\ cs <> [].
Proof. eexists. split; [reflexivity|discriminate]. Qed.
Print Assumptions C96_failed_ex.
(** and every twist is sent with the tool as its frame of reference. *)
Theorem C96_frame : forall e cs0 s evs v, h_configure e = (cs0, Some s) -> In (HTwist v) (h_run s evs) -> In (HFrame TCP_FRAME) cs0.
Proof. exact frame_first. Qed.
Print Assumptions C96_frame.
Example C96_frame_ex : exists v, In (HTwist v) (h_run (HSt true true (Grabber true false)) [HRead [100; 0]]).
Proof.
  cbn; unfold h_read; cbn. rewrite abs_pos, (proj2 (Reqb_false 100 0)) by lra. cbn. destruct (Rltb 0 (Rabs 0)); eexists; left; reflexivity.
Qed.
Print Assumptions C96_frame_ex.
