(** Model of YarpTinyMath.cpp (YarpTinyMathLib).

    A yarp::sig::Matrix is the list of its rows; accesses out of bounds are undefined
    behaviour in the code and [None] here.  yarp::math::eye, the product of matrices and
    Matrix::resize (which keeps the old elements and fills with zeroes) are YARP's and part
    of the trusted base.  Simplification: real numbers for doubles. *)
From Coq Require Import Reals List Bool Arith.
From Verif Require Import Kdl Trig KinRep.
Import ListNotations.
Open Scope R_scope.
Local Notation S := Datatypes.S.

Definition ymat := list (list R).
Definition eye (n : nat) : ymat := map (fun i => map (fun j => if Nat.eqb i j then 1 else 0) (seq 0 n)) (seq 0 n).
Definition rowcol (r c : list R) : R := fold_right Rplus 0 (map (fun p => fst p * snd p) (combine r c)).
Definition column (b : ymat) (j : nat) : list R := map (fun r => nth j r 0) b.
Definition ymul (a b : ymat) : ymat := map (fun r => map (fun j => rowcol r (column b j)) (seq 0 (length (hd [] b)))) a.
Definition yresize (a : ymat) (n m : nat) : ymat :=
  map (fun i => map (fun j => nth j (nth i a []) 0) (seq 0 m)) (seq 0 n).
Fixpoint put (a : ymat) (i j : nat) (x : R) : option ymat :=
  match a, i with
  | [], _ => None
  | r :: a', O => match write r j x with Some r' => Some (r' :: a') | None => None end
  | r :: a', S i' => match put a' i' j x with Some a'' => Some (r :: a'') | None => None end
  end.
Definition el (i j : nat) (x : R) : nat * nat * R := (i, j, x).
Fixpoint puts (a : ymat) (l : list (nat * nat * R)) : option ymat :=
  match l with
  | [] => Some a
  | (i, j, x) :: l' => match put a i j x with Some a' => puts a' l' | None => None end
  end.

(** YarpTinyMath.cpp 9-12: toDeg *)
Definition toDeg (x : R) : R := x * 180 / PI.
(** 16-19: toRad *)
Definition toRad (x : R) : R := x * PI / 180.
(** 23-28: xUpdateH *)
Definition xUpdateH (x : list R) (h : ymat) : option ymat :=
  match nth_error x 0, nth_error x 1, nth_error x 2 with
  | Some a, Some b, Some c => puts h [el 0 3 (a); el 1 3 (b); el 2 3 (c)]
  | _, _, _ => None
  end.
(** 32-43: rotX *)
Definition rotX (d : R) : option ymat :=
  let c := cos (toRad d) in let s := sin (toRad d) in
  puts (eye 3) [el 1 1 (c); el 1 2 (- s); el 2 1 (s); el 2 2 (c)].
(** 47-58: rotY *)
Definition rotY (d : R) : option ymat :=
  let c := cos (toRad d) in let s := sin (toRad d) in
  puts (eye 3) [el 0 0 (c); el 0 2 (s); el 2 0 (- s); el 2 2 (c)].
(** 62-73: rotZ *)
Definition rotZ (d : R) : option ymat :=
  let c := cos (toRad d) in let s := sin (toRad d) in
  puts (eye 3) [el 0 0 (c); el 0 1 (- s); el 1 0 (s); el 1 1 (c)].
(** 77-84: eulerZYZtoH *)
Definition eulerZYZtoH (x o : list R) : option ymat :=
  match nth_error o 0, nth_error o 1, nth_error o 2 with
  | Some a, Some b, Some c =>
      match rotZ a, rotY b, rotZ c with
      | Some ra, Some rb, Some rc =>
          match put (yresize (ymul (ymul ra rb) rc) 4 4) 3 3 1 with
          | Some h => xUpdateH x h
          | None => None
          end
      | _, _, _ => None
      end
  | _, _, _ => None
  end.
(** 88-95: eulerYZtoH *)
Definition eulerYZtoH (x o : list R) : option ymat :=
  match nth_error x 1, nth_error x 0, nth_error o 0, nth_error o 1 with
  | Some y, Some x0, Some a, Some b => eulerZYZtoH x [toDeg (atan2 y x0); a; b]
  | _, _, _, _ => None
  end.
(** 99-132: axisAngleToH *)
Definition axisAngleToH (x o : list R) : option ymat :=
  match nth_error o 0, nth_error o 1, nth_error o 2, nth_error o 3 with
  | Some ox, Some oy, Some oz, Some theta =>
      let c := cos theta in let s := sin theta in let C := 1 - c in
      let xs := ox * s in let ys := oy * s in let zs := oz * s in
      let xC := ox * C in let yC := oy * C in let zC := oz * C in
      let xyC := ox * yC in let yzC := oy * zC in let zxC := oz * xC in
      match puts (eye 4) [el 0 0 (ox * xC + c); el 0 1 (xyC - zs); el 0 2 (zxC + ys);
                          el 1 0 (xyC + zs); el 1 1 (oy * yC + c); el 1 2 (yzC - xs);
                          el 2 0 (zxC - ys); el 2 1 (yzC + xs); el 2 2 (oz * zC + c)] with
      | Some h => xUpdateH x h
      | None => None
      end
  | _, _, _, _ => None
  end.

(** ** Specification vocabulary *)
Definition rows3 (m : mat) : ymat := [[m00 m; m01 m; m02 m]; [m10 m; m11 m; m12 m]; [m20 m; m21 m; m22 m]].
(** the homogeneous matrix of a pose *)
Definition homogeneous (m : mat) (p : vec) : ymat :=
  [[m00 m; m01 m; m02 m; vx p]; [m10 m; m11 m; m12 m; vy p]; [m20 m; m21 m; m22 m; vz p]; [0; 0; 0; 1]].
Definition degrees (d : R) : R := d * PI / 180.
