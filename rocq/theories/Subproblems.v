(** Model of the Paden-Kahan and Pardos-Gotor subproblems (ScrewTheoryLib).

    Each [*_solve] returns [None] when a division by zero makes the result non-finite (NaN
    or infinity in C++), otherwise the returned flag and the vector of local solutions. *)
From Coq Require Import Reals List Bool.
From Verif Require Import Kdl Screw Trig.
Import ListNotations.
Open Scope R_scope.

(** ScrewTheoryIkProblem.hpp 28-36: JointIdToSolution, JointIdsToSolutions, Solutions *)
Definition local_solution := list (nat * R).
Definition solutions := list local_solution.

(** ScrewTheoryTools.hpp 45-50: vectorPow2, v * v' *)
Definition vectorPow2 (v : vec) : mat :=
  M (vx v * vx v) (vx v * vy v) (vx v * vz v)
    (vx v * vy v) (vy v * vy v) (vy v * vz v)
    (vx v * vz v) (vy v * vz v) (vz v * vz v).

(** ScrewTheoryTools.hpp 64-82: normalizeAngle *)
Definition normalizeAngle (angle : R) : R :=
  if Equal (Rabs angle) PI then PI
  else if Rltb PI angle then angle - 2 * PI
  else if Rltb angle (- PI) then angle + 2 * PI
  else angle.

(** std::pow(x, 2) *)
Definition pow2 (x : R) : R := x * x.

(** PadenKahanSubproblems.cpp 13-18 (constructor), 22-45 (PadenKahanOne::solve) *)
Definition pk1_solve (id : nat) (e : mexp) (p : vec) (rhs pt : frame) : option (bool * solutions) :=
  let axisPow := vectorPow2 (e_axis e) in
  let f := fapp pt p in
  let k := fapp rhs p in
  let u := vsub f (e_origin e) in
  let v := vsub k (e_origin e) in
  let u_w := mv axisPow u in
  let v_w := mv axisPow v in
  let u_p := vsub u u_w in
  let v_p := vsub v v_w in
  let theta := atan2 (dot (e_axis e) (cross u_p v_p)) (dot u_p v_p) in
  Some (EqualV u_w v_w && Equal (norm u_p) (norm v_p), [[(id, normalizeAngle theta)]]).

(** PadenKahanSubproblems.cpp 49-60 (constructor), 64-147 (PadenKahanTwo::solve) *)
Definition pk2_solve (id1 id2 : nat) (e1 e2 : mexp) (p r : vec) (rhs pt : frame) : option (bool * solutions) :=
  let axesCross := cross (e_axis e1) (e_axis e2) in
  let axisPow1 := vectorPow2 (e_axis e1) in
  let axisPow2 := vectorPow2 (e_axis e2) in
  let axesDot := dot (e_axis e1) (e_axis e2) in
  let f := fapp pt p in
  let k := fapp rhs p in
  let u := vsub f r in
  let v := vsub k r in
  let u_p := vsub u (mv axisPow2 u) in
  let v_p := vsub v (mv axisPow1 v) in
  let axis1dot := dot (e_axis e1) v in
  let axis2dot := dot (e_axis e2) u in
  let den := pow2 axesDot - 1 in
  do alpha <- fdiv (axesDot * axis2dot - axis1dot) den;
  do beta <- fdiv (axesDot * axis1dot - axis2dot) den;
  let term1 := vadd (vadd r (vscale alpha (e_axis e1))) (vscale beta (e_axis e2)) in
  do gamma2 <- fdiv (pow2 (norm u) - pow2 alpha - pow2 beta - 2 * alpha * beta * axesDot)
                    (pow2 (norm axesCross));
  let gamma2_zero := Equal gamma2 0 in
  if negb gamma2_zero && Rltb 0 gamma2 then
    let gamma := sqrt gamma2 in
    let term2 := vscale gamma axesCross in
    let d := vadd term1 term2 in
    let c := vsub term1 term2 in
    let m := vsub c r in
    let n := vsub d r in
    let m1_p := vsub m (mv axisPow1 m) in
    let m2_p := vsub m (mv axisPow2 m) in
    let n1_p := vsub n (mv axisPow1 n) in
    let n2_p := vsub n (mv axisPow2 n) in
    let theta1_1 := atan2 (dot (e_axis e1) (cross m1_p v_p)) (dot m1_p v_p) in
    let theta2_1 := atan2 (dot (e_axis e2) (cross u_p m2_p)) (dot u_p m2_p) in
    let theta1_2 := atan2 (dot (e_axis e1) (cross n1_p v_p)) (dot n1_p v_p) in
    let theta2_2 := atan2 (dot (e_axis e2) (cross u_p n2_p)) (dot u_p n2_p) in
    Some (Equal (norm m1_p) (norm v_p),
          [[(id1, normalizeAngle theta1_1); (id2, normalizeAngle theta2_1)];
           [(id1, normalizeAngle theta1_2); (id2, normalizeAngle theta2_2)]])
  else
    let n := vsub term1 r in
    let n1_p := vsub n (mv axisPow1 n) in
    let n2_p := vsub n (mv axisPow2 n) in
    let theta1 := atan2 (dot (e_axis e1) (cross n1_p v_p)) (dot n1_p v_p) in
    let theta2 := atan2 (dot (e_axis e2) (cross u_p n2_p)) (dot u_p n2_p) in
    Some (gamma2_zero && Equal (norm n1_p) (norm v_p),
          [[(id1, normalizeAngle theta1); (id2, normalizeAngle theta2)];
           [(id1, normalizeAngle theta1); (id2, normalizeAngle theta2)]]).

(** PadenKahanSubproblems.cpp 151-157 (constructor), 161-213 (PadenKahanThree::solve) *)
Definition pk3_solve (id : nat) (e : mexp) (p k : vec) (rhs pt : frame) : option (bool * solutions) :=
  let axisPow := vectorPow2 (e_axis e) in
  let f := fapp pt p in
  let rhsAsVector := vsub (fapp rhs p) k in
  let delta := norm rhsAsVector in
  let u := vsub f (e_origin e) in
  let v := vsub k (e_origin e) in
  let u_p := vsub u (mv axisPow u) in
  let v_p := vsub v (mv axisPow v) in
  let alpha := atan2 (dot (e_axis e) (cross u_p v_p)) (dot u_p v_p) in
  let delta_p_2 := pow2 delta - pow2 (dot (e_axis e) (vsub f k)) in
  let u_p_norm := norm u_p in
  let v_p_norm := norm v_p in
  do betaCos <- fdiv (pow2 u_p_norm + pow2 v_p_norm - delta_p_2) (2 * u_p_norm * v_p_norm);
  let betaCosAbs := Rabs betaCos in
  let beta_zero := Equal betaCosAbs 1 in
  if negb beta_zero && Rltb betaCosAbs 1 then
    let betaCosCapped := Rmax (-1) (Rmin 1 betaCos) in
    let beta := acos betaCosCapped in
    let theta1 := alpha + beta in
    let theta2 := alpha - beta in
    Some (true, [[(id, normalizeAngle theta1)]; [(id, normalizeAngle theta2)]])
  else
    Some (beta_zero, [[(id, normalizeAngle alpha)]; [(id, normalizeAngle alpha)]]).

(** PardosGotorSubproblems.cpp 24-28 (constructor), 32-47 (PardosGotorOne::solve) *)
Definition pg1_solve (id : nat) (e : mexp) (p : vec) (rhs pt : frame) : option (bool * solutions) :=
  let f := fapp pt p in
  let k := fapp rhs p in
  let diff := vsub k f in
  let theta := dot (e_axis e) diff in
  Some (true, [[(id, theta)]]).

(** PardosGotorSubproblems.cpp 51-59 (constructor), 63-94 (PardosGotorTwo::solve) *)
Definition pg2_solve (id1 id2 : nat) (e1 e2 : mexp) (p : vec) (rhs pt : frame) : option (bool * solutions) :=
  let crossPr2 := cross (e_axis e2) (e_axis e1) in
  let crossPr2Norm := norm crossPr2 in
  let f := fapp pt p in
  let k := fapp rhs p in
  let crossPr1 := cross (e_axis e2) (vsub f k) in
  let crossPr1Norm := norm crossPr1 in
  do ratio <- fdiv crossPr1Norm crossPr2Norm;
  let c :=
    if Rleb (crossPr1Norm * crossPr2Norm) (dot crossPr1 crossPr2)
    then vadd k (vscale ratio (e_axis e1))
    else vsub k (vscale ratio (e_axis e1)) in
  let theta1 := dot (e_axis e1) (vsub k c) in
  let theta2 := dot (e_axis e2) (vsub c f) in
  Some (true, [[(id1, theta1); (id2, theta2)]]).

(** PardosGotorSubproblems.cpp 98-103 (constructor), 107-144 (PardosGotorThree::solve) *)
Definition pg3_solve (id : nat) (e : mexp) (p k : vec) (rhs pt : frame) : option (bool * solutions) :=
  let f := fapp pt p in
  let rhsAsVector := vsub (fapp rhs p) k in
  let delta := norm rhsAsVector in
  let diff := vsub k f in
  let dotPr := dot (e_axis e) diff in
  let sq2 := pow2 dotPr - pow2 (norm diff) + pow2 delta in
  let sq2_zero := Equal sq2 0 in
  if negb sq2_zero && Rltb 0 sq2 then
    let sq := sqrt (Rabs sq2) in
    Some (true, [[(id, dotPr + sq)]; [(id, dotPr - sq)]])
  else
    let proy := mv (vectorPow2 (e_axis e)) diff in
    Some (sq2_zero, [[(id, norm proy)]; [(id, norm proy)]]).

(** PardosGotorSubproblems.cpp 13-19: computeNormal *)
Definition computeNormal (e1 e2 : mexp) : vec :=
  let diff := vsub (e_origin e2) (e_origin e1) in
  let normal := normalize (cross (cross (e_axis e1) diff) (e_axis e1)) in
  mv (vectorPow2 normal) diff.

(** PardosGotorSubproblems.cpp 148-156 (constructor), 160-253 (PardosGotorFour::solve) *)
Definition pg4_solve (id1 id2 : nat) (e1 e2 : mexp) (p : vec) (rhs pt : frame) : option (bool * solutions) :=
  let n := computeNormal e1 e2 in
  let axisPow := vectorPow2 (e_axis e1) in
  let f := fapp pt p in
  let k := fapp rhs p in
  let u := vsub f (e_origin e2) in
  let v := vsub k (e_origin e1) in
  let u_p := vsub u (mv axisPow u) in
  let v_p := vsub v (mv axisPow v) in
  let c1_0 := vsub (vadd (e_origin e1) v) v_p in
  let c2 := vsub (vadd (e_origin e2) u) u_p in
  let c_diff_0 := vsub c2 c1_0 in
  let samePlane := EqualV c_diff_0 n in
  let c_diff := if samePlane then c_diff_0 else n in
  let c1 := if samePlane then c1_0 else vsub c2 c_diff in
  let c_norm := norm c_diff in
  let u_p_norm := norm u_p in
  let v_p_norm := norm v_p in
  let c_test := u_p_norm + v_p_norm - c_norm in
  let c_zero := Equal c_test 0 in
  if negb c_zero && Rltb 0 c_test then
    do inv_c <- fdiv 1 c_norm;
    let omega_a := vscale inv_c c_diff in
    let omega_h := cross (e_axis e1) omega_a in
    do a <- fdiv (pow2 c_norm - pow2 u_p_norm + pow2 v_p_norm) (2 * c_norm);
    let h := sqrt (Rabs (pow2 (norm v_p) - pow2 a)) in
    let term1 := vadd c1 (vscale a omega_a) in
    let term2 := vscale h omega_h in
    let c := vadd term1 term2 in
    let d := vsub term1 term2 in
    let m1 := vsub c (e_origin e1) in
    let m2 := vsub c (e_origin e2) in
    let n1 := vsub d (e_origin e1) in
    let n2 := vsub d (e_origin e2) in
    let m1_p := vsub m1 (mv axisPow m1) in
    let m2_p := vsub m2 (mv axisPow m2) in
    let n1_p := vsub n1 (mv axisPow n1) in
    let n2_p := vsub n2 (mv axisPow n2) in
    let theta1_1 := atan2 (dot (e_axis e1) (cross m1_p v_p)) (dot m1_p v_p) in
    let theta2_1 := atan2 (dot (e_axis e2) (cross u_p m2_p)) (dot u_p m2_p) in
    let theta1_2 := atan2 (dot (e_axis e1) (cross n1_p v_p)) (dot n1_p v_p) in
    let theta2_2 := atan2 (dot (e_axis e2) (cross u_p n2_p)) (dot u_p n2_p) in
    Some (samePlane && Equal (norm m1_p) v_p_norm,
          [[(id1, normalizeAngle theta1_1); (id2, normalizeAngle theta2_1)];
           [(id1, normalizeAngle theta1_2); (id2, normalizeAngle theta2_2)]])
  else
    let theta1 := atan2 (dot (e_axis e1) (cross c_diff v_p)) (dot c_diff v_p) in
    let theta2 := atan2 (dot (e_axis e2) (cross u_p c_diff)) (dot (vneg c_diff) u_p) in
    Some (c_zero,
          [[(id1, normalizeAngle theta1); (id2, normalizeAngle theta2)];
           [(id1, normalizeAngle theta1); (id2, normalizeAngle theta2)]]).

(** ** Specification vocabulary *)

(** part of a vector normal to a direction *)
Definition perp (a v : vec) : vec := vsub v (vscale (dot a v) a).
Definition dist (x y : vec) : R := norm (vsub x y).
(** position of a point after one (two) screw displacements *)
Definition move1 (e : mexp) (t : R) (x : vec) : vec := fapp (asFrame e t) x.
Definition move2 (e1 e2 : mexp) (t1 t2 : R) (x : vec) : vec := move1 e1 t1 (move1 e2 t2 x).

(** [th] takes the point [f] to [k]: exactly, unless the library snapped the angle to PI, in
    which case the point is within 1e-6 times its distance to the axis origin *)
Definition reaches1 (e : mexp) (f k : vec) (th : R) : Prop :=
  - PI < th <= PI /\
  (th <> PI -> move1 e th f = k) /\
  dist (move1 e th f) k <= kdl_eps * dist f (e_origin e).

Definition reaches2 (e1 e2 : mexp) (f k : vec) (th1 th2 : R) : Prop :=
  - PI < th1 <= PI /\ - PI < th2 <= PI /\
  (th1 <> PI -> th2 <> PI -> move2 e1 e2 th1 th2 f = k) /\
  dist (move2 e1 e2 th1 th2 f) k <= kdl_eps * (dist f (e_origin e2) + dist k (e_origin e1)).

(** [th] brings the point [f] to the distance [delta] from [k], up to the same snapping *)
Definition reaches_dist (e : mexp) (f k : vec) (delta th : R) : Prop :=
  - PI < th <= PI /\
  (th <> PI -> dist (move1 e th f) k = delta) /\
  Rabs (dist (move1 e th f) k - delta) <= kdl_eps * dist f (e_origin e).

(** [th] puts the point [f] where [t] puts it, up to the same snapping *)
Definition same_place (e : mexp) (f : vec) (th t : R) : Prop :=
  (th <> PI -> move1 e th f = move1 e t f) /\
  dist (move1 e th f) (move1 e t f) <= kdl_eps * dist f (e_origin e).

(** cosine, by the law of cosines, of the angle at the axis between [k] and a point as far
    from the axis as [f] whose distance to [k] is [delta]; a rotation reaching that distance
    exists iff it lies in [-1, 1] *)
Definition elbow_cos (a o f k : vec) (delta : R) : R :=
  let nu := norm (perp a (vsub f o)) in
  let nv := norm (perp a (vsub k o)) in
  (nu * nu + nv * nv - (delta * delta - dot a (vsub f k) * dot a (vsub f k))) / (2 * nu * nv).
