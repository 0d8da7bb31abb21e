(** What the properties of the Cartesian controller talk about, independently of how the
    controller computes it: the commands and readings in a trace of calls, the joint ranges,
    histories of operations, and interleavings of a caller with the periodic thread. *)
From Coq Require Import Reals ZArith List Bool.
From Verif Require Import Kdl Vocab Bcc.
Import ListNotations.
Open Scope R_scope.
Local Notation S := Datatypes.S.

(** ** Traces *)

(** the calls that make the robot move or exert torque *)
Definition motion (c : call) : bool :=
  match c with PositionMove _ | VelocityMove _ | SetPositions _ | SetRefTorques _ => true | _ => false end.
Definition motions (tr : list event) : list call := filter motion (map fst tr).
(** the solver's computations whose failure is reported *)
Definition solving (c : call) : bool :=
  match c with FwdKin _ | InvKin _ _ _ | DiffInvKin _ _ _ | InvDyn _ | InvDynForce _ _ _ _ _ => true | _ => false end.

(** the first answer to a given kind of question *)
Definition first_answer (is : call -> bool) (tr : list event) : option answer :=
  option_map snd (find (fun e => is (fst e)) tr).
Definition asks_modes (c : call) : bool := match c with GetControlModes => true | _ => false end.
Definition asks_encoders (c : call) : bool :=
  match c with GetEncoders | GetEncoderSpeeds | GetEncoderAccelerations => true | _ => false end.

(** every joint is reported in the given mode *)
Definition all_in_mode (n : nat) (mode : Z) (a : answer) : Prop :=
  ok a = true /\ forall j, (j < n)%nat -> nth j (modes a) 0%Z = mode.

(** ** Ranges *)
Definition margin : R := 1 / 100000.
Definition complete (c : cfg) : Prop :=
  length (qMin c) = numJoints c /\ length (qMax c) = numJoints c /\
  length (qdotMin c) = numJoints c /\ length (qdotMax c) = numJoints c /\ length (qRefSpeeds c) = numJoints c.
Definition inside_at (c : cfg) (q : list R) (j : nat) : Prop :=
  nth j (qMin c) 0 + margin <= nth j q 0 <= nth j (qMax c) 0 - margin.
Definition inside (c : cfg) (q : list R) : Prop := forall j, (j < numJoints c)%nat -> inside_at c q j.
(** symmetric range when the lower bound is zero *)
Definition speed_ok (lo hi v : R) : Prop :=
  (lo = 0 -> - hi <= v <= hi) /\ (lo <> 0 -> lo <= v <= hi).
Definition slow (c : cfg) (v : list R) : Prop :=
  forall j, (j < numJoints c)%nat -> speed_ok (nth j (qdotMin c) 0) (nth j (qdotMax c) 0) (nth j v 0).
(** no joint that is near or beyond a limit moves towards it *)
Definition retreating (c : cfg) (q v : list R) : Prop :=
  forall j, (j < numJoints c)%nat ->
    (nth j q 0 < nth j (qMin c) 0 + margin -> 0 <= nth j v 0) /\
    (nth j q 0 > nth j (qMax c) 0 - margin -> nth j v 0 <= 0).
(** the ranges are wider than the two margins *)
Definition wide (c : cfg) : Prop :=
  forall j, (j < numJoints c)%nat -> nth j (qMin c) 0 + 2 * margin < nth j (qMax c) 0.

(** ** The mode a controlled movement works in *)
Definition mode_of (c : cfg) (state : Z) : Z :=
  if Z.eqb state VOCAB_CC_MOVJ_CONTROLLING then VOCAB_CM_POSITION
  else if Z.eqb state VOCAB_CC_MOVL_CONTROLLING then (if usePosdMovl c then VOCAB_CM_POSITION_DIRECT else VOCAB_CM_VELOCITY)
  else if Z.eqb state VOCAB_CC_MOVV_CONTROLLING then VOCAB_CM_VELOCITY
  else VOCAB_CM_TORQUE.
Definition controlling_states : list Z :=
  [VOCAB_CC_MOVJ_CONTROLLING; VOCAB_CC_MOVL_CONTROLLING; VOCAB_CC_MOVV_CONTROLLING;
   VOCAB_CC_GCMP_CONTROLLING; VOCAB_CC_FORC_CONTROLLING].

(** ** Histories: one operation after another, whole cycles in between *)
Inductive op :=
| OStat | OInv (xd : list R) | OMovj (xd : list R) | ORelj (xd : list R) | OMovl (fuel : nat) (xd : list R)
| OMovv (xdotd : list R) | OGcmp | OForc (f : list R) | OStop | OWait (fuel : nat) (timeout : R)
| OTool (x : list R) | OAct (command : Z) | OPose (x : list R) | OTwist (xdot : list R) | OWrench (w : list R)
| OSet (key : Z) (value : R) | OGet (key : Z) | OSets (params : list (Z * R)) | OGets
| OCycle.

(** the boolean an operation returns, true if it returns none *)
Definition shown {A} (o : option A) : bool := match o with Some _ => true | None => false end.
Definition do_op (c : cfg) (o : op) : prog bool :=
  match o with
  | OStat => let* r := stat c true in Ret (shown r)
  | OInv xd => let* r := inv c xd in Ret (shown r)
  | OMovj xd => movj c xd
  | ORelj xd => relj c xd
  | OMovl fuel xd => movl c fuel xd
  | OMovv xdotd => movv c xdotd
  | OGcmp => gcmp c
  | OForc f => forc c f
  | OStop => stopControl c
  | OWait fuel t => wait c fuel t
  | OTool x => tool x
  | OAct k => act k
  | OPose x => pose c x ;; Ret true
  | OTwist x => twist c x ;; Ret true
  | OWrench w => wrench c w ;; Ret true
  | OSet k v => setParameter c k v
  | OGet k => let* r := getParameter k in Ret (shown r)
  | OSets m => setParameters c m
  | OGets => let* r := getParameters [] in Ret true
  | OCycle => run c ;; Ret true
  end.

(** one step of a history: the operation, the calls it issued, what it returned *)
Notation entry := (op * list event * bool)%type.
Inductive history (c : cfg) : st -> list entry -> st -> Prop :=
| hnil s : history c s [] s
| hcons s s1 s2 o tr b h :
    exec (do_op c o) s tr (Done b) s1 -> history c s1 h s2 -> history c s ((o, tr, b) :: h) s2.

(** ** Interleavings
    A caller executes a program; the periodic thread is somewhere in a cycle ([q]) and runs
    [n] more cycles.  Each call, each access to the controller's variables is a step of its
    own.  What happens is listed in order, with a mark when the caller's program returns. *)
Inductive happening := Caller (e : event) | Thread (e : event) | Returned (b : bool).

Inductive together (c : cfg) : option (prog bool) -> prog Datatypes.unit -> nat -> st -> list happening -> st -> Prop :=
| t_end p q n s : together c p q n s [] s
| t_ret b q n s l s' : together c None q n s l s' -> together c (Some (Ret b)) q n s (Returned b :: l) s'
| t_call x a k q n s l s' : together c (Some (k a)) q n s l s' -> together c (Some (Call x k)) q n s (Caller (x, a) :: l) s'
| t_get k q n s l s' : together c (Some (k s)) q n s l s' -> together c (Some (Get k)) q n s l s'
| t_mod f k q n s l s' : together c (Some k) q n (f s) l s' -> together c (Some (Mod f k)) q n s l s'
| p_call p x a k n s l s' : together c p (k a) n s l s' -> together c p (Call x k) n s (Thread (x, a) :: l) s'
| p_get p k n s l s' : together c p (k s) n s l s' -> together c p (Get k) n s l s'
| p_mod p f k n s l s' : together c p k n (f s) l s' -> together c p (Mod f k) n s l s'
| p_next p n s l s' : together c p (run c) n s l s' -> together c p (Ret tt) (S n) s l s'.

(** the part of a list of happenings after the caller's program returned *)
Fixpoint after_return (l : list happening) : list happening :=
  match l with [] => [] | Returned _ :: l' => l' | _ :: l' => after_return l' end.
Definition motion_happens (h : happening) : bool :=
  match h with Caller (x, _) | Thread (x, _) => motion x | Returned _ => false end.

(** ** Speeds of a joint move
    [v] moves every joint with a positive reference speed from [q] to [qd] in the same time
    [T], no faster than its reference speed, one of them exactly at it; other joints are
    given no speed. *)
Definition isochronous (n : nat) (refs q qd v : list R) (T : R) : Prop :=
  0 < T /\ length v = n /\
  (forall j, (j < n)%nat ->
     (0 < nth j refs 0 -> 0 <= nth j v 0 <= nth j refs 0 /\ nth j v 0 * T = Rabs (nth j qd 0 - nth j q 0)) /\
     (nth j refs 0 <= 0 -> nth j v 0 = 0)) /\
  exists j, (j < n)%nat /\ 0 < nth j refs 0 /\ nth j v 0 = nth j refs 0.
Definition must_move (n : nat) (refs q qd : list R) : Prop :=
  exists j, (j < n)%nat /\ 0 < nth j refs 0 /\ nth j qd 0 <> nth j q 0.

(** ** Failing cycles *)

(** consecutive cycles, up to the end of a history, whose joint readings failed *)
Definition unreadable (tr : list event) : bool :=
  existsb (fun e => asks_encoders (fst e) && negb (ok (snd e))) tr.
Definition reads (tr : list event) : bool := existsb (fun e => asks_encoders (fst e)) tr.
Fixpoint streak (k : Z) (h : list entry) : Z :=
  match h with
  | [] => k
  | (OCycle, tr, _) :: h' => streak (if unreadable tr then k + 1 else if reads tr then 0 else k)%Z h'
  | _ :: h' => streak k h'
  end.

(** what can go wrong in a cycle, [k] cycles in a row having failed to read the joints *)
Inductive cycle_failed (c : cfg) (k : Z) (s : st) (tr : list event) : Prop :=
| cf_encoders : unreadable tr = true -> (20 <= k)%Z -> cycle_failed c k s tr
| cf_limits a : In (GetEncoders, a) tr -> unreadable tr = false -> ~ inside c (vals a) -> cycle_failed c k s tr
| cf_mode a : first_answer asks_modes tr = Some a -> ~ all_in_mode (numJoints c) (mode_of c (currentState s)) a -> cycle_failed c k s tr
| cf_solver x a : In (x, a) tr -> solving x = true -> ok a = false -> cycle_failed c k s tr
| cf_progress a : In (CheckMotionDone, a) tr -> ok a = false -> cycle_failed c k s tr
| cf_speed q xd f a : In (DiffInvKin q xd f, a) tr -> ~ slow c (vals a) -> cycle_failed c k s tr.

(** the motion was given up: nothing sent but the stop, and recorded as failed *)
Definition gave_up (tr : list event) (s' : st) : Prop :=
  motions tr = [] /\ (exists t a, tr = t ++ [(Stop, a)]) /\
  currentState s' = VOCAB_CC_NOT_CONTROLLING /\ cmcSuccess s' = false.

(** ** Presetting *)

(** nothing is preset during a movement *)
Definition settled (s : st) : Prop := streamingCommand s <> VOCAB_CC_NOT_SET -> currentState s = VOCAB_CC_NOT_CONTROLLING.
(** the entry presets the given streaming command *)
Definition presets (e : entry) (v : Z) : Prop :=
  let '(o, tr, b) := e in
  match o with
  | OSet k x => k = VOCAB_CC_CONFIG_STREAMING_CMD /\ b = true /\ IZR v <= x < IZR v + 1
  | OSets m => exists x, In (VOCAB_CC_CONFIG_STREAMING_CMD, x) m /\ IZR v <= x < IZR v + 1
  | _ => False
  end.
(** the entry does not affect what is preset: it neither presets, nor starts or stops a movement *)
Definition no_change (e : entry) : Prop :=
  let '(o, tr, b) := e in
  match o with
  | OStop => False
  | OSet k _ => k <> VOCAB_CC_CONFIG_STREAMING_CMD
  | OSets m => forall x, ~ In (VOCAB_CC_CONFIG_STREAMING_CMD, x) m
  | OMovj _ | ORelj _ => b = false \/ motions tr = []
  | OMovl _ _ | OMovv _ | OGcmp | OForc _ => b = false
  | OWait _ _ | OCycle => tr = []
  | _ => True
  end.
(** the last change in the history was presetting [v] *)
Definition preset_last (h : list entry) (v : Z) : Prop :=
  exists h1 e h2, h = h1 ++ e :: h2 /\ presets e v /\ Forall no_change h2.

(** ** Reference speeds
    The robot starts with reference speeds [v], accepts or refuses new ones, and when asked
    tells the ones in force. *)
Fixpoint in_force (v : list R) (tr : list event) : list R :=
  match tr with
  | [] => v
  | (SetRefSpeeds w, a) :: t => in_force (if ok a then w else v) t
  | _ :: t => in_force v t
  end.
Fixpoint honest (n : nat) (v : list R) (tr : list event) : Prop :=
  match tr with
  | [] => True
  | (GetRefSpeeds, a) :: t => (ok a = true -> firstn n (vals a) = v) /\ honest n v t
  | (SetRefSpeeds w, a) :: t => honest n (if ok a then w else v) t
  | _ :: t => honest n v t
  end.
(** all the calls of a history *)
Definition trace_of (h : list entry) : list event := concat (map (fun e => snd (fst e)) h).

(** ** Parameters *)
Definition parameters : list Z :=
  [VOCAB_CC_CONFIG_GAIN; VOCAB_CC_CONFIG_TRAJ_DURATION; VOCAB_CC_CONFIG_CMC_PERIOD;
   VOCAB_CC_CONFIG_WAIT_PERIOD; VOCAB_CC_CONFIG_FRAME; VOCAB_CC_CONFIG_STREAMING_CMD].
(** those stored as integers *)
Definition whole (k : Z) : Prop :=
  k = VOCAB_CC_CONFIG_CMC_PERIOD \/ k = VOCAB_CC_CONFIG_WAIT_PERIOD \/ k = VOCAB_CC_CONFIG_STREAMING_CMD.
(** asking for [k] in [s] gives [r] *)
Definition reads_as (k : Z) (s : st) (r : option R) : Prop := exec (getParameter k) s [] (Done r) s.

(** ** Samples of a trajectory
    The joint positions the solver was asked to start from and gave back. *)
Fixpoint solved (tr : list event) : list (list R * answer) :=
  match tr with
  | [] => []
  | (InvKin _ q _, a) :: t => (q, a) :: solved t
  | _ :: t => solved t
  end.
(** each sample starts from the one before *)
Fixpoint chained (q0 : list R) (l : list (list R * answer)) : Prop :=
  match l with [] => True | (q, a) :: l' => q = q0 /\ chained (vals a) l' end.
Definition displacement (n : nat) (q : list R) (a : answer) : list R := map (fun j => nth j (vals a) 0 - nth j q 0) (seq 0 n).
Definition checked (c : cfg) (e : list R * answer) : Prop :=
  ok (snd e) = true /\ inside c (vals (snd e)) /\ slow c (displacement (numJoints c) (fst e) (snd e)).

(** ** The end of a movement
    The robot reports the joint move as done, or the time since [start] exceeds the duration
    of a trajectory. *)
Definition completed (start : R) (tr : list event) : Prop :=
  (exists a, In (CheckMotionDone, a) tr /\ ok a = true /\ done a = true) \/
  (exists a0 t a, In (Now, a0) tr /\ In (TrajDuration t, a) tr /\ num a < num a0 - start).
(** what the periodic thread did *)
Fixpoint by_thread (l : list happening) : list event :=
  match l with [] => [] | Thread e :: l' => e :: by_thread l' | _ :: l' => by_thread l' end.
Fixpoint before_return (l : list happening) : list happening :=
  match l with [] => [] | Returned _ :: _ => [] | h :: l' => h :: before_return l' end.

(** ** Well-behaved surroundings
    Solver and trajectories of a robot with [k] endpoints give back as many numbers as they
    should, and the caller passes six numbers per endpoint. *)
Definition proper (c : cfg) (k : nat) (e : event) : Prop :=
  match fst e with
  | InvKin _ _ _ | DiffInvKin _ _ _ | InvDyn _ | InvDynForce _ _ _ _ _ => ok (snd e) = true -> length (vals (snd e)) = numJoints c
  | FwdKin _ | ChangeOrigin _ _ => ok (snd e) = true -> length (vals (snd e)) = (6 * k)%nat
  | PoseDiff _ _ => (length (vals (snd e)) <= 6 * k)%nat
  | TrajPos _ _ | TrajVel _ _ => length (vals (snd e)) = 6%nat
  | GetNumTcps => modes (snd e) = [Z.of_nat k]
  | _ => True
  end.
Definition six_each (k : nat) (o : op) : Prop :=
  match o with ORelj x | OMovl _ x | OMovv x => length x = (6 * k)%nat | _ => True end.
(** the ways an operation may still end badly: a cycle with a control period of 0 ms, an
    integer parameter outside the range of its type, a bound on iterations in the model *)
Definition excused (o : op) (e : trouble) (s : st) : Prop :=
  match o, e with
  | OCycle, NotFinite => cmcPeriodMs s = 0%Z
  | (OSet _ _ | OSets _), BadCast => True
  | (OMovl _ _ | OWait _ _), Endless => True
  | _, _ => False
  end.
