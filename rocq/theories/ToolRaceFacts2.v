(** Proofs about the solver used by several threads: the threads that change the tool. *)
From Coq Require Import Reals List Bool Arith Lia.
From Verif Require Import Kdl KdlRot Trig KinRep KdlSolver Ft Tree ToolRace ToolRaceSpec ToolRaceFacts.
Import ListNotations.
Open Scope nat_scope.
Local Notation length := List.length.

(** ** One change *)
Lemma fold_add m s : fold_left act (add_segment s) m =
  Sh (sh_segs m ++ [s]) ((if is_fixed (s_joint s) then 0 else 1) + sh_nj m) (Datatypes.S (sh_ns m)).
Proof. unfold add_segment. destruct (is_fixed (s_joint s)); reflexivity. Qed.
Lemma fold_adds : forall c m, fold_left act (concat (map add_segment c)) m = Sh (sh_segs m ++ c) (nr_of_joints c + sh_nj m) (length c + sh_ns m).
Proof.
  induction c as [|s c IH]; intros m; cbn [map concat].
  - cbn. rewrite app_nil_r. destruct m; reflexivity.
  - rewrite fold_left_app, fold_add, IH. cbn [sh_segs sh_nj sh_ns]. rewrite nr_cons, <- app_assoc. cbn [app length]. f_equal; lia.
Qed.
Lemma change_original s o : sv_original (change s o) = sv_original s.
Proof. destruct o; reflexivity. Qed.
Lemma nr_tool c x : nr_of_joints (c ++ [mk_segment fixed_joint (vectorToFrame x)]) = nr_of_joints c.
Proof. rewrite nr_app, nr_cons. change (nr_of_joints []) with 0. cbn [mk_segment s_joint fixed_joint is_fixed j_type]. lia. Qed.
Lemma actions_done s o : fold_left act (actions (sv_original s) o) (at_rest (sv_chain s)) = at_rest (sv_chain (change s o)).
Proof.
  destruct o as [x|]; unfold actions.
  - rewrite fold_add. unfold at_rest. cbn [sh_segs sh_nj sh_ns change sv_chain]. rewrite nr_tool, app_length. cbn [mk_segment s_joint fixed_joint is_fixed j_type length]. f_equal; lia.
  - rewrite fold_left_app, fold_adds. unfold at_rest. cbn [fold_left act sh_segs sh_nj sh_ns change sv_chain sv_original app]. f_equal; lia.
Qed.

Definition all (s : solver) (h : list (nat * tool_op)) : solver := fold_left change (map snd h) s.
Lemma all_snoc s h p : all s (h ++ [p]) = change (all s h) (snd p).
Proof. unfold all. rewrite map_app, fold_left_app. reflexivity. Qed.
Lemma all_original s h : sv_original (all s h) = sv_original s.
Proof. unfold all. generalize (map snd h) as os. intros os. revert s. induction os as [|o os IH]; intros s; cbn; [reflexivity|]. rewrite IH. apply change_original. Qed.

(** ** Threads *)
Lemma nth_set {A} (d : A) : forall i j (x : A) l, i < length l -> nth j (set_nth i x l) d = if Nat.eqb j i then x else nth j l d.
Proof.
  induction i as [|i IH]; intros j x [|y l] L; cbn in L; try lia; destruct j; cbn; try reflexivity. apply IH. lia.
Qed.
Definition mine (i : nat) (h : list (nat * tool_op)) : list tool_op := map snd (filter (fun p => Nat.eqb (fst p) i) h).
Lemma mine_snoc i h p : mine i (h ++ [p]) = mine i h ++ (if Nat.eqb (fst p) i then [snd p] else []).
Proof. unfold mine. rewrite filter_app, map_app. cbn. destruct (Nat.eqb (fst p) i); reflexivity. Qed.

(** what holds of the threads that change the tool, whatever they change *)
Definition writers (s : solver) (threads : list (list tool_op)) (w : world) : Prop :=
  (forall i, mine i (w_history w) ++ nth i (w_threads w) [] = nth i threads []) /\
  match w_owner w with
  | None => w_mem w = at_rest (sv_chain (all s (w_history w)))
  | Some (i, o, l) => fold_left act l (w_mem w) = at_rest (sv_chain (all s (w_history w)))
  end.
Lemma writers_step strict s threads t w : writers s threads w -> writers s threads (step strict (sv_original s) t w).
Proof.
  intros (H & M). destruct t as [|i]; cbn [step]; [split; assumption|].
  destruct (w_owner w) as [[[j o] l]|] eqn:O.
  - destruct (Nat.eqb i j); [|split; [exact H|rewrite O; exact M]].
    destruct l as [|a l]; split; cbn; try exact H; exact M.
  - destruct (nth i (w_threads w) []) as [|o os] eqn:N; [split; [exact H|rewrite O; exact M]|].
    assert (i < length (w_threads w)) as L by (destruct (Nat.ltb_spec i (length (w_threads w))); [assumption|rewrite nth_overflow in N by lia; discriminate]).
    split.
    + intros j. cbn [w_history w_threads]. rewrite mine_snoc, nth_set by exact L. cbn [fst snd]. rewrite <- H. rewrite (Nat.eqb_sym j i).
      destruct (Nat.eqb_spec i j) as [->|]; [rewrite N, <- app_assoc; reflexivity|rewrite app_nil_r; reflexivity].
    + cbn [w_owner w_mem w_history]. rewrite all_snoc, M. cbn [snd]. rewrite <- (all_original s (w_history w)). apply actions_done.
Qed.
Lemma writers_play strict s threads : forall ts w, writers s threads w -> writers s threads (play strict (sv_original s) ts w).
Proof. induction ts as [|t ts IH]; intros w H; [exact H|]. cbn. apply IH. apply writers_step. exact H. Qed.
Lemma writers_begin s threads p : writers s threads (begin (sv_chain s) threads p).
Proof. split; [intros i; reflexivity|reflexivity]. Qed.

(** changes by several threads take effect one after the other *)
Theorem serial strict s threads p ts w :
  play strict (sv_original s) ts (begin (sv_chain s) threads p) = w -> all_made w ->
  shuffles threads (w_history w) /\ w_mem w = at_rest (sv_chain (fold_left change (map snd (w_history w)) s)).
Proof.
  intros <- (O & N). destruct (writers_play strict s threads ts _ (writers_begin s threads p)) as (H & M).
  rewrite O in M. split; [|exact M]. intros i. specialize (H i). rewrite N, app_nil_r in H. exact H.
Qed.

(** ** Only additions *)
Definition adders (s : solver) (w : world) : Prop :=
  Forall (Forall adds) (w_threads w) /\
  match w_owner w with
  | None => w_mem w = at_rest (sv_chain (all s (w_history w)))
  | Some (i, o, l) => exists h, w_history w = h ++ [(i, o)] /\
      match o with
      | Restore => False
      | Append x => let c := sv_chain (all s h) in let d := c ++ [mk_segment fixed_joint (vectorToFrame x)] in
          (l = [Push (mk_segment fixed_joint (vectorToFrame x)); CountSegment] /\ w_mem w = at_rest c) \/
          (l = [CountSegment] /\ w_mem w = Sh d (nr_of_joints c) (length c)) \/ (l = [] /\ w_mem w = at_rest d)
      end
  end.
Lemma Forall_set {A} (P : A -> Prop) : forall i x l, P x -> Forall P l -> Forall P (set_nth i x l).
Proof. induction i as [|i IH]; intros x [|y l] Hx H; cbn; inversion H; subst; constructor; auto. Qed.
Lemma adders_step strict s t w : adders s w -> adders s (step strict (sv_original s) t w).
Proof.
  intros (H & M). destruct t as [|i]; cbn [step]; [split; [exact H|exact M]|].
  destruct (w_owner w) as [[[j o] l]|] eqn:O.
  - destruct (Nat.eqb i j); [|split; [exact H|rewrite O; exact M]].
    destruct M as (h & Eh & M). destruct o as [x|]; [|contradiction]. cbv zeta in M.
    destruct M as [(-> & Em)|[(-> & Em)|(-> & Em)]]; (split; [exact H|]); cbn [w_owner w_mem w_history].
    + exists h. split; [exact Eh|]. cbv zeta. right. left. split; [reflexivity|]. rewrite Em. reflexivity.
    + exists h. split; [exact Eh|]. cbv zeta. right. right. split; [reflexivity|]. rewrite Em. unfold at_rest. cbn [act sh_segs sh_nj sh_ns].
      rewrite nr_tool, app_length. cbn [length]. f_equal. lia.
    + rewrite Eh, all_snoc. exact Em.
  - destruct (nth i (w_threads w) []) as [|o os] eqn:N; [split; [exact H|rewrite O; exact M]|].
    assert (i < length (w_threads w)) as L by (destruct (Nat.ltb_spec i (length (w_threads w))); [assumption|rewrite nth_overflow in N by lia; discriminate]).
    assert (Forall adds (o :: os)) as A by (rewrite <- N; apply (proj1 (Forall_nth _ _) H); exact L).
    inversion A as [|? ? A1 A2]; subst. split; cbn [w_threads w_owner w_history w_mem].
    + apply Forall_set; assumption.
    + exists (w_history w). split; [reflexivity|]. destruct o as [x|]; [|contradiction]. cbv zeta. left. split; [reflexivity|exact M].
Qed.
Lemma adders_begin s threads p : Forall (Forall adds) threads -> adders s (begin (sv_chain s) threads p).
Proof. intros H. split; [exact H|reflexivity]. Qed.

(** the number of joints is always that of the beginning *)
Definition only_adds (h : list (nat * tool_op)) : Prop := Forall (fun p => adds (snd p)) h.
Lemma nr_all s : forall h, only_adds h -> nr_of_joints (sv_chain (all s h)) = nr_of_joints (sv_chain s).
Proof.
  induction h as [|p h IH] using rev_ind; intros H; [reflexivity|]. apply Forall_app in H. destruct H as (H & H'). inversion H' as [|? ? A _]; subst.
  rewrite all_snoc. destruct (snd p) as [x|]; [|contradiction]. cbn [change sv_chain]. rewrite nr_tool. apply IH. exact H.
Qed.
Lemma grows s : forall h e, only_adds e -> exists d, sv_chain (all s (h ++ e)) = sv_chain (all s h) ++ d /\ length d = length e.
Proof.
  induction e as [|p e IH] using rev_ind; intros H; [exists []; rewrite !app_nil_r; split; reflexivity|]. apply Forall_app in H. destruct H as (H & H'). inversion H' as [|? ? A _]; subst.
  destruct (IH H) as (d & E & L). rewrite app_assoc, all_snoc. destruct (snd p) as [x|]; [|contradiction]. cbn [change sv_chain]. rewrite E, <- app_assoc.
  eexists. split; [reflexivity|]. rewrite !app_length, L. reflexivity.
Qed.

(** ** What the thread of the query sees *)
(** history only grows *)
Lemma history_step strict orig t w : exists e, w_history (step strict orig t w) = w_history w ++ e.
Proof.
  destruct t as [|i]; cbn; [exists []; rewrite app_nil_r; reflexivity|].
  destruct (w_owner w) as [[[j o] l]|].
  - exists []. rewrite app_nil_r. destruct (Nat.eqb i j); [destruct l|]; reflexivity.
  - destruct (nth i (w_threads w) []) as [|o os]; [exists []; rewrite app_nil_r; reflexivity|]. eexists. reflexivity.
Qed.
Lemma ended_le w : ended w <= length (w_history w).
Proof. unfold ended. destruct (w_owner w); lia. Qed.

(** the world seen in a turn of the thread of the query, when tools are only added *)
Record seen (s : solver) (w : world) : Prop := Seen {
  seen_nj : sh_nj (w_mem w) = nr_of_joints (sv_chain s);
  seen_ns : sh_ns (w_mem w) <= length (sv_chain (all s (w_history w)));
  seen_free : w_owner w = None -> sh_segs (w_mem w) = sv_chain (all s (w_history w));
  seen_adds : only_adds (w_history w);
  seen_quiet : forall i o l, w_owner w = Some (i, o, l) -> stores_joints o = false }.
Definition adders' s w := adders s w /\ only_adds (w_history w).
Lemma adders'_step strict s t w : adders' s w -> adders' s (step strict (sv_original s) t w).
Proof.
  intros (H & A). split; [apply adders_step; exact H|]. destruct H as (H & _). destruct t as [|i]; cbn; [exact A|].
  destruct (w_owner w) as [[[j o] l]|].
  - destruct (Nat.eqb i j); [destruct l|]; exact A.
  - destruct (nth i (w_threads w) []) as [|o os] eqn:N; [exact A|]. cbn. apply Forall_app. split; [exact A|]. constructor; [|constructor].
    assert (i < length (w_threads w)) as L by (destruct (Nat.ltb_spec i (length (w_threads w))); [assumption|rewrite nth_overflow in N by lia; discriminate]).
    assert (Forall adds (o :: os)) as B by (rewrite <- N; apply (proj1 (Forall_nth _ _) H); exact L). inversion B; assumption.
Qed.
Lemma adders_seen s w : adders' s w -> seen s w.
Proof.
  intros ((H & M) & A). destruct (w_owner w) as [[[j o] l]|] eqn:O.
  - destruct M as (h & Eh & M). destruct o as [x|]; [|contradiction]. cbv zeta in M.
    assert (nr_of_joints (sv_chain (all s h)) = nr_of_joints (sv_chain s)) as N by (apply nr_all; rewrite Eh in A; apply Forall_app in A; apply A).
    assert (sv_chain (all s (w_history w)) = sv_chain (all s h) ++ [mk_segment fixed_joint (vectorToFrame x)]) as C by (rewrite Eh, all_snoc; reflexivity).
    constructor; try assumption.
    + destruct M as [(_ & ->)|[(_ & ->)|(_ & ->)]]; cbn; rewrite ?nr_tool; exact N.
    + rewrite C, app_length. destruct M as [(_ & ->)|[(_ & ->)|(_ & ->)]]; cbn; rewrite ?app_length; cbn; lia.
    + congruence.
    + intros i o l' E. rewrite O in E. injection E as <- <- <-. reflexivity.
  - constructor; try assumption; rewrite ?M; cbn.
    + apply nr_all. exact A.
    + lia.
    + reflexivity.
    + intros i o l' E. rewrite O in E. discriminate.
Qed.
Lemma seen_nr s w : seen s w -> nr_of_joints (sv_chain (all s (w_history w))) = nr_of_joints (sv_chain s).
Proof. intros Y. apply nr_all. apply (seen_adds s w Y). Qed.

(** turns in which the query does not move *)
Lemma query_kept strict orig t w : changing t -> w_query (step strict orig t w) = w_query w.
Proof.
  destruct t as [|i]; [contradiction|]. intros _. cbn. destruct (w_owner w) as [[[j o] l]|].
  - destruct (Nat.eqb i j); [destruct l|]; reflexivity.
  - destruct (nth i (w_threads w) []); reflexivity.
Qed.
Lemma query_kept_all strict orig : forall ts w, Forall changing ts -> w_query (play strict orig ts w) = w_query w.
Proof. induction ts as [|t ts IH]; intros w H; [reflexivity|]. inversion H; subst. change (w_query (play strict orig ts (step strict orig t w)) = w_query w). rewrite IH by assumption. apply query_kept. assumption. Qed.
Lemma adders'_play strict s : forall ts w, adders' s w -> adders' s (play strict (sv_original s) ts w).
Proof. induction ts as [|t ts IH]; intros w H; [exact H|]. cbn. apply IH. apply adders'_step. exact H. Qed.
Lemma adders'_begin s threads p : Forall (Forall adds) threads -> adders' s (begin (sv_chain s) threads p).
Proof. intros H. split; [apply adders_begin; exact H|constructor]. Qed.
