(** Streamed commands that take their time, with the crank of SysExamples3. *)
From Coq Require Import Reals ZArith List Bool Lra Lia Permutation.
From Verif Require Import Kdl Vocab Bcc BccSpec BccFacts BccFacts2 BccFacts5 BccExamples SysExamples3 Net NetSpec NetFacts Loose LooseSpec LooseFacts.
From Verif Require Rpc RpcSpec RpcFacts Feed.
Import ListNotations.
Open Scope R_scope.
Local Notation S := Datatypes.S.
Local Notation length := List.length.
Local Arguments to_int : simpl never.

Definition rig_opened : open (1 / 20) 10 50 20 false false BASE_FRAME false 1 (Some [10]) false rig_robot 1 true = Some (rig, idle) := eq_refl.
Definition forward : list R := [1; 0; 0; 0; 0; 0].
Definition still : list R := [0; 0; 0; 0; 0; 0].
Definition preset : Rpc.request := Rpc.RSet VOCAB_CC_CONFIG_STREAMING_CMD (IZR VOCAB_CC_TWIST).
Definition still_one : list event :=
  [(GetControlModes, mode 1 VOCAB_CM_VELOCITY); (GetEncoders, give [0]); (DiffInvKin [0] still BASE_FRAME, give [0]); (VelocityMove [0], yes)].

Lemma rig_preset : exec (method rig 0 preset) idle preset_one (Done Rpc.Okay) streaming.
Proof.
  exact (join_done (setParameter rig VOCAB_CC_CONFIG_STREAMING_CMD (IZR VOCAB_CC_TWIST)) (fun b : bool => if b then Rpc.Okay else Rpc.Failed) idle preset_one true streaming
    ltac:(unfold setParameter; rewrite to_int_twist; ex)).
Qed.
Lemma rig_forward : exec (method rig 0 (Rpc.RTwist forward)) streaming twist_one (Done Rpc.Okay) streaming.
Proof. cbn [method]. apply exec_then. exists tt. split; [|reflexivity]. unfold forward. ex. Qed.
Lemma rig_still : exec (method rig 0 (Rpc.RTwist still)) streaming still_one (Done Rpc.Okay) streaming.
Proof. cbn [method]. apply exec_then. exists tt. split; [|reflexivity]. unfold still, still_one. ex. Qed.
Lemma rig_stop : exec (method rig 0 Rpc.RStop) streaming stop_one (Done Rpc.Okay) (set_off streaming).
Proof.
  assert (exec (stopControl rig) streaming stop_one (Done true) (set_off streaming)) as E by ex.
  exact (join_done (stopControl rig) (fun b : bool => if b then Rpc.Okay else Rpc.Failed) _ _ _ _ E).
Qed.
Lemma rig_held : exec (method rig 0 (Rpc.RTwist forward)) (set_off streaming) [] (Done Rpc.Okay) (set_off streaming).
Proof. cbn [method]. apply exec_then. exists tt. split; [|reflexivity]. ex. Qed.
Definition resumed : st := set_streaming VOCAB_CC_TWIST (setCurrentState VOCAB_CC_NOT_CONTROLLING (set_off streaming)).
Lemma rig_resume : exec (method rig 0 preset) (set_off streaming) preset_one (Done Rpc.Okay) resumed.
Proof.
  exact (join_done (setParameter rig VOCAB_CC_CONFIG_STREAMING_CMD (IZR VOCAB_CC_TWIST)) (fun b : bool => if b then Rpc.Okay else Rpc.Failed) (set_off streaming) preset_one true resumed
    ltac:(unfold setParameter; rewrite to_int_twist; ex)).
Qed.
Lemma rig_late : exec (method rig 0 (Rpc.RTwist forward)) resumed twist_one (Done Rpc.Okay) resumed.
Proof. cbn [method]. apply exec_then. exists tt. split; [|reflexivity]. unfold forward. ex. Qed.

Lemma idle_healthy : healthy idle.
Proof. exact (open_health _ _ _ _ _ _ _ _ _ _ _ _ _ _ _ _ rig_opened). Qed.
Lemma asked base r s tr x s' w : exec (method rig 0 r) s tr (Done x) s' -> streams r = false -> healthy s -> RpcSpec.expressible r ->
  loosely rig base s w (Do (Method r)) tr x s' w.
Proof. intros E S H X. apply loose_ask; [exact S|]. apply remote_local; [exact H | exact X |]. exact (by_call rig r 0 _ _ _ _ E). Qed.
Lemma streaming_healthy : healthy streaming.
Proof. exact (local_health _ _ _ _ _ _ (by_call rig preset 0 _ _ _ _ rig_preset) idle_healthy). Qed.
Lemma preset_expressible : RpcSpec.expressible preset.
Proof. split; [discriminate|]. intros _. exists VOCAB_CC_TWIST. split; [reflexivity|]. vm_compute. split; discriminate. Qed.
Lemma ask_preset base w : loosely rig base idle w (Do (Method preset)) preset_one Rpc.Okay streaming w.
Proof. exact (asked base preset _ _ _ _ w rig_preset eq_refl idle_healthy preset_expressible). Qed.
Definition note (x : list R) : list Rpc.value := Rpc.VVocab VOCAB_CC_TWIST :: map Rpc.VFloat x.
Lemma sends base x s w : loosely rig base s w (Do (Method (Rpc.RTwist x))) [] Rpc.Okay s (w ++ [note x]).
Proof. now apply loose_send. Qed.
Lemma arrives base x k s tr s' w : nth_error w k = Some (note x) -> Rpc.onRead (Rpc.At tt) (note x) = Some (tt, Rpc.RTwist x) ->
  exec (method rig 0 (Rpc.RTwist x)) s tr (Done Rpc.Okay) s' -> loosely rig base s w (Arrives k) tr Rpc.Okay s' (Feed.remove_at k w).
Proof. intros N O E. apply (loose_arrive rig base k (note x)); [exact N|]. exact (obeyed rig _ _ 0 _ _ _ _ O E). Qed.

(** two twists in order; the last one stops the robot *)
Definition fine_day : entries :=
  [(Do (Method preset), preset_one, Rpc.Okay); (Do (Method (Rpc.RTwist forward)), [], Rpc.Okay); (Arrives 0, twist_one, Rpc.Okay);
   (Do (Method (Rpc.RTwist still)), [], Rpc.Okay); (Do Cycle, [], Rpc.Okay); (Arrives 0, still_one, Rpc.Okay)].
Ltac sendings := repeat constructor; cbn; try discriminate; try apply preset_expressible; auto.
Example fine base : loose_sendable fine_day /\ loose_in_order fine_day /\ none_lost fine_day /\ loose_session rig base idle [] fine_day streaming []
  /\ sent fine_day = [Rpc.RTwist forward; Rpc.RTwist still].
Proof.
  split; [sendings|]. split; [|split; [|split; [|reflexivity]]].
  - intros k tr x I. cbn in I. repeat destruct I as [I|I]; try discriminate; try (now injection I as <- _ _); destruct I.
  - intros k tr x I. cbn in I. repeat destruct I as [I|I]; try discriminate; destruct I.
  - eapply loose_cons; [apply ask_preset|]. eapply loose_cons; [apply sends|]. eapply loose_cons; [apply (arrives base forward 0); [reflexivity | reflexivity | exact rig_forward]|].
    cbn. eapply loose_cons; [apply sends|]. eapply loose_cons; [apply loose_cycle, meanwhile; cbn; auto|].
    eapply loose_cons; [apply (arrives base still 0); [reflexivity | reflexivity | exact rig_still]|]. cbn. constructor.
Qed.
(** the first overtaken by the second: all arrive, and the robot is left moving *)
Definition odd_day : entries :=
  [(Do (Method preset), preset_one, Rpc.Okay); (Do (Method (Rpc.RTwist forward)), [], Rpc.Okay); (Do (Method (Rpc.RTwist still)), [], Rpc.Okay);
   (Arrives 1, still_one, Rpc.Okay); (Arrives 0, twist_one, Rpc.Okay)].
Lemma odd base : loose_sendable odd_day /\ none_lost odd_day /\ loose_session rig base idle [] odd_day streaming [].
Proof.
  split; [sendings|]. split.
  - intros k tr x I. cbn in I. repeat destruct I as [I|I]; try discriminate; destruct I.
  - eapply loose_cons; [apply ask_preset|]. eapply loose_cons; [apply sends|]. eapply loose_cons; [apply sends|]. cbn.
    eapply loose_cons; [apply (arrives base still 1); [reflexivity | reflexivity | exact rig_still]|]. cbn.
    eapply loose_cons; [apply (arrives base forward 0); [reflexivity | reflexivity | exact rig_forward]|]. cbn. constructor.
Qed.
(** a twist that arrives after the stop *)
Definition before_stop : entries := [(Do (Method preset), preset_one, Rpc.Okay); (Do (Method (Rpc.RTwist forward)), [], Rpc.Okay)].
Definition after_stop : entries := [(Arrives 0, [], Rpc.Okay); (Do Cycle, [], Rpc.Okay)].
Definition stop_day (h : entries) : entries := before_stop ++ (Do (Method Rpc.RStop), stop_one, Rpc.Okay) :: h.
Lemma off_healthy : healthy (set_off streaming).
Proof. exact (local_health _ _ _ _ _ _ (by_call rig Rpc.RStop 0 _ _ _ _ rig_stop) streaming_healthy). Qed.
Lemma stopping base h s' w' : loose_session rig base (set_off streaming) [note forward] h s' w' -> loose_session rig base idle [] (stop_day h) s' w'.
Proof.
  intros H. unfold stop_day, before_stop. cbn [app]. eapply loose_cons; [apply ask_preset|]. eapply loose_cons; [apply sends|].
  eapply loose_cons; [apply (asked base Rpc.RStop _ _ _ _ _ rig_stop); [reflexivity | exact streaming_healthy | exact I]|]. exact H.
Qed.
Example stop_respected base : loose_session rig base idle [] (stop_day after_stop) (set_off streaming) [] /\ loose_sendable (stop_day after_stop) /\ at_ease after_stop.
Proof.
  split; [|split; [sendings | repeat constructor]]. apply stopping.
  eapply loose_cons; [apply (arrives base forward 0); [reflexivity | reflexivity | exact rig_held]|]. cbn.
  eapply loose_cons; [apply loose_cycle, meanwhile; cbn; auto|]. constructor.
Qed.
(** or after twists have been selected again *)
Definition again : entries := [(Do (Method preset), preset_one, Rpc.Okay); (Arrives 0, twist_one, Rpc.Okay)].
Lemma stop_forgotten base : loose_session rig base idle [] (stop_day again) resumed [] /\ loose_sendable (stop_day again).
Proof.
  split; [|sendings]. apply stopping.
  eapply loose_cons; [exact (asked base preset _ _ _ _ _ rig_resume eq_refl off_healthy preset_expressible)|].
  eapply loose_cons; [apply (arrives base forward 0); [reflexivity | reflexivity | exact rig_late]|]. cbn. constructor.
Qed.

(** ** the refutations *)
Lemma overtaken_refuted : exists g dur cmc wp posd ff frame timed n refs user robot sj started c s base h s' before pre q0 x0 x v,
  open g dur cmc wp posd ff frame timed n refs user robot sj started = Some (c, s) /\ loose_sendable h /\ none_lost h /\
  loose_session c base s [] h s' [] /\ sent h = before ++ [Rpc.RTwist x0] /\ motions (loose_calls h) = pre ++ [VelocityMove v] /\
  In (DiffInvKin q0 x0 BASE_FRAME, give [0]) (loose_calls h) /\ In (DiffInvKin q0 x BASE_FRAME, give v) (loose_calls h) /\ v <> [0].
Proof.
  destruct (odd (fun b => b)) as (A & B & C).
  exists (1 / 20), 10, 50%Z, 20%Z, false, false, BASE_FRAME, false, 1%nat, (Some [10]), false, rig_robot, 1%nat, true, rig, idle, (fun b => b), odd_day, streaming,
    [Rpc.RTwist forward], [VelocityMove [0]], [0], still, forward, [4].
  split; [reflexivity|]. split; [exact A|]. split; [exact B|]. split; [exact C|]. split; [reflexivity|]. split; [reflexivity|].
  split; [cbn; tauto|]. split; [cbn; unfold forward; tauto|]. intros E. injection E as E. lra.
Qed.
Lemma stop_refuted : exists g dur cmc wp posd ff frame timed n refs user robot sj started c s base h1 tr h2 s',
  open g dur cmc wp posd ff frame timed n refs user robot sj started = Some (c, s) /\
  loose_sendable (h1 ++ (Do (Method Rpc.RStop), tr, Rpc.Okay) :: h2) /\
  loose_session c base s [] (h1 ++ (Do (Method Rpc.RStop), tr, Rpc.Okay) :: h2) s' [] /\
  sent h2 = [] /\ Forall (fun e => asks_nothing (fst (fst e)) \/ exists k v, fst (fst e) = Do (Method (Rpc.RSet k v))) h2 /\ motions (loose_calls h2) <> [].
Proof.
  destruct (stop_forgotten (fun b => b)) as (B & A).
  exists (1 / 20), 10, 50%Z, 20%Z, false, false, BASE_FRAME, false, 1%nat, (Some [10]), false, rig_robot, 1%nat, true, rig, idle, (fun b => b),
    before_stop, stop_one, again, resumed.
  split; [reflexivity|]. split; [exact A|]. split; [exact B|]. split; [reflexivity|].
  split; [constructor; [right; do 2 eexists; reflexivity | constructor; [left; exact I | constructor]]|]. discriminate.
Qed.
