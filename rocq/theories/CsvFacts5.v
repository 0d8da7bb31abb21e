(** Facts about kdl-from-csv.py: reading the printed matrix. *)
From Coq Require Import Reals List Bool ZArith Ascii String Lia Lra Permutation.
From Verif Require Import Kdl KdlFacts Config Csv CsvSpec CsvFacts CsvFacts2 CsvFacts3 CsvFacts4.
Import ListNotations.
Local Open Scope R_scope.
Local Notation S := Datatypes.S.
Local Notation length := List.length.

Lemma split_dot a : forall b a' b', ~ In "."%char a -> ~ In "."%char a' ->
  a ++ "."%char :: b = a' ++ "."%char :: b' -> a = a' /\ b = b'.
Proof.
  induction a as [|x a IH]; intros b [|x' a'] b' N N' E; cbn in E.
  - now injection E as ->.
  - injection E as E _. elim N'. left. now symmetry.
  - injection E as E _. elim N. now left.
  - injection E as -> E. destruct (IH b a' b') as [-> ->]; auto.
    + intros I. apply N. now right.
    + intros I. apply N'. now right.
Qed.
Lemma no_dot a : numeral a -> ~ In "."%char a.
Proof. intros [D _]. apply digs_no; [apply dot_not | exact D]. Qed.

Lemma magnitude_unique t x y : magnitude t x -> magnitude t y -> x = y.
Proof.
  intros A B. destruct A as [a A|a b A1 A2]; inversion B as [a' A' E|a' b' B1 B2 E]; subst.
  - reflexivity.
  - elim (no_dot _ A). apply in_or_app. right. now left.
  - elim (no_dot _ A'). apply in_or_app. right. now left.
  - apply split_dot in E; [|now apply no_dot | now apply no_dot]. destruct E as [-> ->]. reflexivity.
Qed.
Lemma magnitude_first t x : magnitude ("-"%char :: t) x -> False.
Proof.
  assert (forall a, numeral ("-"%char :: a) -> False) as N.
  { intros a [D _]. inversion D. now apply minus_not. }
  intros A. inversion A as [a B E|a b B1 B2 E]; subst.
  - now apply (N t).
  - destruct a as [|c a]; [destruct B1 as [_ B1]; now elim B1|]. injection E as -> _. now apply (N a).
Qed.
Lemma reads_unique t x y : reads t x -> reads t y -> x = y.
Proof.
  intros A B. destruct A as [t x A|t x A]; inversion B as [t' y' B' E|t' y' B' E]; subst.
  - now apply (magnitude_unique t).
  - elim (magnitude_first _ _ A).
  - elim (magnitude_first _ _ B').
  - f_equal. now apply (magnitude_unique t).
Qed.

Lemma rot_Z t : rotation_matrix (RotZ t).
Proof.
  assert (H := sin2_cos2 t). unfold Rsqr in H. split; unfold mm, mT, det, RotZ, mid; cbn; [f_equal|]; lra.
Qed.
Lemma rot_X t : rotation_matrix (RotX t).
Proof.
  assert (H := sin2_cos2 t). unfold Rsqr in H. split; unfold mm, mT, det, RotX, mid; cbn; [f_equal|]; lra.
Qed.
Lemma dh_rigid l : rigid (dh_pose l).
Proof.
  unfold dh_pose. apply rigid_mul; apply rigid_mul; unfold rigid; cbn; try apply rot_Z; try apply rot_X; apply rigid_id.
Qed.
Lemma product_rigid ls : rigid (product ls).
Proof.
  unfold product. assert (R := rigid_id). revert R. generalize fid.
  induction ls as [|l ls IH]; intros f R; [exact R|]. cbn. apply IH. apply rigid_mul; [exact R | apply dh_rigid].
Qed.

Lemma tidy_digit c : isdig c -> tidy [c].
Proof.
  intros D. split; [discriminate|]. intros [E|[]]. subst c. now elim dot_not.
Qed.

Lemma f2_length {A B} (P : A -> B -> Prop) l l' : Forall2 P l l' -> length l = length l'.
Proof. induction 1; cbn; congruence. Qed.

Lemma script_printed metres ev order fmt lengths_rows dh_rows words : rounds15 fmt ->
  kdl_from_csv metres ev order fmt lengths_rows dh_rows = Some words ->
  exists nums h, words = tx "(" :: nums ++ [tx ")"] /\ length nums = 16%nat /\ Forall tidy nums /\ rigid h
    /\ (exists ys, Forall2 reads nums ys)
    /\ forall ys, Forall2 reads nums ys -> same15 (matrix_frame (Some ys)) h.
Proof.
  intros R E. unfold kdl_from_csv in E.
  destruct (read_lengths metres [] lengths_rows) as [d|]; [|discriminate].
  destruct (table_params ev order d dh_rows) as [ls|]; [|discriminate].
  rewrite pose_product in E. injection E as <-.
  destruct (printed_shows fmt (product ls) R) as (nums & En & F).
  exists nums, (product ls). split; [exact En|].
  assert (L := f2_length _ _ _ F). split; [exact L|]. split; [|split; [apply product_rigid|]].
  - unfold printed in En. injection En as En.
    match type of En with ?l = _ => change l with (removelast l ++ [last l []]) in En end.
    apply app_inj_tail in En. destruct En as [<- _]. cbn [removelast].
    assert (T : forall x, tidy (shown fmt x)) by (intros x; apply shown_number; apply R).
    repeat (apply Forall_cons; [first [apply T | apply tidy_digit; unfold isdig; cbn; lia]|]). constructor.
  - split.
    + clear - F. induction F as [|t x nums l (y & A & _) F (ys & IH)]; [now exists []|]. exists (y :: ys). now constructor.
    + intros ys Y. assert (Forall2 (fun y x => Rabs (y - x) <= / 2 / 10 ^ 15) ys (entries (product ls))) as C.
      { clear - F Y. revert ys Y. induction F as [|t x nums l (y & A & B) F IH]; intros ys Y.
        - inversion Y. constructor.
        - inversion Y as [|? y' ? ys' Y1 Y2]; subst. constructor; [|now apply IH].
          now rewrite (reads_unique t y' y). }
      clear - C. unfold same15.
      assert (entries (matrix_frame (Some ys)) = firstn 12 ys ++ [0; 0; 0; 1]) as E.
      { assert (L := f2_length _ _ _ C). cbn [entries length] in L.
        do 16 (destruct ys as [|? ys]; [discriminate|]). destruct ys; [|discriminate]. reflexivity. }
      rewrite E. unfold entries in *.
      do 12 (inversion C as [|? ? ? ? C1 C2]; subst; clear C; rename C2 into C; cbn [firstn app]; apply Forall2_cons; [exact C1|]; cbn [firstn app] in *; clear C1).
      cbn [firstn app].
      assert (forall z : R, Rabs (z - z) <= / 2 / 10 ^ 15) as Z.
      { intros z. replace (z - z) with 0 by ring. rewrite Rabs_R0.
        unfold Rdiv. apply Rmult_le_pos; [lra|]. left. apply Rinv_0_lt_compat, pow_lt. lra. }
      repeat (apply Forall2_cons; [apply Z|]). constructor.
Qed.
