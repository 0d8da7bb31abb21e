(** programs/keyboardController: a key is handled while the thread that streams poses runs.  KeyboardController.cpp and
    LinearTrajectoryThread.cpp.  Both are broken into their calls and into their accesses to the members that they share: suspended,
    usingTcpFrame, deltaX, and trajectory with startTime.  What each of them computes is that of Keyboard.v. *)
From Coq Require Import Reals List Bool Ascii ZArith.
From Verif Require Import Kdl KdlRot KinRep KdlSolver Vocab Keyboard.
Import ListNotations.
Open Scope R_scope.

(** what the handling of a key does, one access at a time: a call to the devices, PeriodicThread::suspend and resume, useTcpFrame, and the
    two stores of configure, done with the lock taken *)
Inductive k_micro := Call (x : k_cmd) | Suspend | Resume | UseTcp (b : bool) | StoreDelta (d : list R) | StoreLine (l : k_line).
(** 773-780: wherever it is issued, stopControl comes after suspending the thread *)
Definition k_calls (c : k_cfg) (cs : list k_cmd) : list k_micro :=
  concat (map (fun x => match x with KStop => if k_thread c then [Suspend; Call KStop] else [Call KStop] | _ => [Call x] end) cs).
(** 597-625 with usingThread, and LinearTrajectoryThread.cpp 49-93; [s]: the members after the key *)
Definition cart_end (c : k_cfg) (e : k_env) (s : k_st) : list k_micro :=
  if forallb (fun x => Reqb x 0) (roundZeroes (k_cv s)) then [Suspend]
  else if k_streaming c && negb (e_preset e) then []
  else if k_tcp s then [StoreDelta (map (fun x => k_period c / 1000 * x) (k_cv s)); Resume]
  else match e_stat e with
       | None => []
       | Some x => [StoreLine (KLine (vectorToFrame x) (vectorToTwist (k_cv s)) (e_now e)); Resume]
       end.
(** 308-450: the accesses of a key, which calls [cs] and leaves the members as in [s] *)
Definition key_steps (c : k_cfg) (k : ascii) (e : k_env) (cs : list k_cmd) (s : k_st) : list k_micro :=
  k_calls c cs ++
  (if k_cart c && k_thread c then
     match key_action k with
     | ACart _ _ => cart_end c e s
     | AFrame => if e_frame e then [UseTcp (Z.eqb (k_fr s) TCP_FRAME)] else []
     | _ => []
     end
   else []).

(** where the thread is: waiting for its period; in run, before looking at usingTcpFrame; in either branch, before the lock; and before the
    call to pose.  PeriodicThread (trusted) looks at suspended once, before run. *)
Inductive k_phase := Waiting | Woken | InTcp | InBase | Sending (x : k_cmd).
(** [kw_st]: the members, those of the keys as they will be at the end of the key in course; [kw_todo]: what is left of it; [kw_sent]: the
    calls so far, and whether the thread did them (not in the code) *)
Record k_world := KW { kw_st : k_st; kw_todo : list k_micro; kw_phase : k_phase; kw_sent : list (bool * k_cmd) }.
Definition do_micro (m : k_micro) (s : k_st) : k_st :=
  match m with
  | Call _ => s
  | Suspend => set_susp true s
  | Resume => set_susp false s
  | UseTcp b => set_tcp b s
  | StoreDelta d => set_delta d s
  | StoreLine l => set_traj (Some l) s
  end.
(** the members that the thread does not see take the values of [s'] *)
Definition own (s s' : k_st) : k_st := KSt (k_ctl s') (k_jm s') (k_jv s') (k_cv s') (k_act s') (k_fr s') (k_susp s) (k_tcp s) (k_delta s) (k_traj s) (k_over s').
Definition micro_calls (m : k_micro) : list (bool * k_cmd) := match m with Call x => [(false, x)] | _ => [] end.

(** whose turn it is: a key comes, the handling of the last one goes on, or the thread goes on (with the time on its clock) *)
Inductive k_turn := TKey (k : ascii) (e : k_env) | TMain | TThread (now : R).
(** [None]: undefined *)
Definition kw_step (c : k_cfg) (t : k_turn) (w : k_world) : option k_world :=
  let s := kw_st w in
  match t with
  | TKey k e =>
      match kw_todo w with
      | [] => if k_over s then Some w else
              match pressKey c k e s with
              | None => None
              | Some (cs, s') => Some (KW (own s s') (key_steps c k e cs s') (kw_phase w) (kw_sent w))
              end
      | _ => Some w
      end
  | TMain =>
      match kw_todo w with
      | m :: l => Some (KW (do_micro m s) l (kw_phase w) (kw_sent w ++ micro_calls m))
      | [] => Some w
      end
  | TThread now =>
      let go p := Some (KW s (kw_todo w) p (kw_sent w)) in
      match kw_phase w with
      | Waiting => go (if k_thread c && negb (k_susp s) then Woken else Waiting)
      | Woken => go (if k_tcp s then InTcp else InBase)
      | InTcp => go (Sending (KPose (k_delta s)))
      | InBase =>
          match k_traj s with
          | None => None
          | Some l => go (Sending (match line_pos l (now - l_time l) with Some h => KPose (frameToVector h) | None => KPoseNaN end))
          end
      | Sending x => Some (KW s (kw_todo w) Waiting (kw_sent w ++ [(true, x)]))
      end
  end.
Fixpoint kw_play (c : k_cfg) (ts : list k_turn) (w : k_world) : option k_world :=
  match ts with
  | [] => Some w
  | t :: ts => match kw_step c t w with None => None | Some w => kw_play c ts w end
  end.
(** after configure, which has called [cs] *)
Definition kw_begin (cs : list k_cmd) (s : k_st) : k_world := KW s [] Waiting (map (pair false) cs).
