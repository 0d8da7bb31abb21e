(** Model of the parts of Orocos KDL that the library is written against.

    KDL is a dependency: its sources are not in /repo, so the definitions below are
    a model of its documented behaviour (part of the trusted base, see DESIGN.md).
    Simplification: [double] is the field [R] of real numbers, without rounding,
    NaN or infinities. *)
From Coq Require Import Reals Lra List Bool.
Import ListNotations.
Open Scope R_scope.

(** ** Comparisons on doubles (as booleans) *)
Definition Rltb (x y : R) : bool := if Rlt_dec x y then true else false.
Definition Rleb (x y : R) : bool := if Rle_dec x y then true else false.
Definition Reqb (x y : R) : bool := if Req_EM_T x y then true else false.

(** KDL::epsilon, default tolerance of KDL::Equal *)
Definition kdl_eps : R := / 1000000.

(** KDL::Equal(double,double,eps): eps > a-b && a-b > -eps *)
Definition Equal (a b : R) : bool := Rltb (a - b) kdl_eps && Rltb (- kdl_eps) (a - b).

(** ** KDL::Vector *)
Record vec := V { vx : R; vy : R; vz : R }.

Definition vzero : vec := V 0 0 0.
Definition vadd (a b : vec) : vec := V (vx a + vx b) (vy a + vy b) (vz a + vz b).
Definition vsub (a b : vec) : vec := V (vx a - vx b) (vy a - vy b) (vz a - vz b).
Definition vneg (a : vec) : vec := V (- vx a) (- vy a) (- vz a).
Definition vscale (k : R) (a : vec) : vec := V (k * vx a) (k * vy a) (k * vz a).
(** KDL::dot *)
Definition dot (a b : vec) : R := vx a * vx b + vy a * vy b + vz a * vz b.
(** KDL: operator*(Vector,Vector) is the cross product *)
Definition cross (a b : vec) : vec :=
  V (vy a * vz b - vz a * vy b) (vz a * vx b - vx a * vz b) (vx a * vy b - vy a * vx b).
(** KDL::Vector::Norm; simplification: exact square root, the flush to zero that some
    releases apply to vectors shorter than eps is not modelled *)
Definition norm (a : vec) : R := sqrt (dot a a).
(** KDL::Vector::Normalize(eps): vectors shorter than eps become (1,0,0) *)
Definition normalize (a : vec) : vec :=
  if Rltb (norm a) kdl_eps then V 1 0 0 else vscale (/ norm a) a.
(** KDL::Equal(Vector,Vector,eps): componentwise *)
Definition EqualV (a b : vec) : bool :=
  Equal (vx a) (vx b) && Equal (vy a) (vy b) && Equal (vz a) (vz b).

(** ** KDL::Rotation (an arbitrary 3x3 matrix, row major) *)
Record mat := M { m00 : R; m01 : R; m02 : R;
                  m10 : R; m11 : R; m12 : R;
                  m20 : R; m21 : R; m22 : R }.

Definition mid : mat := M 1 0 0 0 1 0 0 0 1.
Definition msub (a b : mat) : mat :=
  M (m00 a - m00 b) (m01 a - m01 b) (m02 a - m02 b)
    (m10 a - m10 b) (m11 a - m11 b) (m12 a - m12 b)
    (m20 a - m20 b) (m21 a - m21 b) (m22 a - m22 b).
(** KDL::Rotation * KDL::Vector *)
Definition mv (a : mat) (v : vec) : vec :=
  V (m00 a * vx v + m01 a * vy v + m02 a * vz v)
    (m10 a * vx v + m11 a * vy v + m12 a * vz v)
    (m20 a * vx v + m21 a * vy v + m22 a * vz v).
(** KDL::Rotation * KDL::Rotation *)
Definition mm (a b : mat) : mat :=
  M (m00 a * m00 b + m01 a * m10 b + m02 a * m20 b)
    (m00 a * m01 b + m01 a * m11 b + m02 a * m21 b)
    (m00 a * m02 b + m01 a * m12 b + m02 a * m22 b)
    (m10 a * m00 b + m11 a * m10 b + m12 a * m20 b)
    (m10 a * m01 b + m11 a * m11 b + m12 a * m21 b)
    (m10 a * m02 b + m11 a * m12 b + m12 a * m22 b)
    (m20 a * m00 b + m21 a * m10 b + m22 a * m20 b)
    (m20 a * m01 b + m21 a * m11 b + m22 a * m21 b)
    (m20 a * m02 b + m21 a * m12 b + m22 a * m22 b).
(** KDL::Rotation::Inverse: the transpose *)
Definition mT (a : mat) : mat :=
  M (m00 a) (m10 a) (m20 a) (m01 a) (m11 a) (m21 a) (m02 a) (m12 a) (m22 a).
Definition det (a : mat) : R :=
  m00 a * (m11 a * m22 a - m12 a * m21 a)
  - m01 a * (m10 a * m22 a - m12 a * m20 a)
  + m02 a * (m10 a * m21 a - m11 a * m20 a).

(** KDL::Rotation::Rot2(axis, angle): Rodrigues' formula, axis not normalised *)
Definition Rot2 (a : vec) (t : R) : mat :=
  let ct := cos t in let st := sin t in let vt := 1 - ct in
  M (ct + vt * vx a * vx a) (- (st * vz a) + vt * vx a * vy a) (st * vy a + vt * vx a * vz a)
    (st * vz a + vt * vx a * vy a) (ct + vt * vy a * vy a) (- (st * vx a) + vt * vy a * vz a)
    (- (st * vy a) + vt * vx a * vz a) (st * vx a + vt * vy a * vz a) (ct + vt * vz a * vz a).
(** KDL::Rotation::Rot(axis, angle): normalises the axis first *)
Definition Rot (a : vec) (t : R) : mat := Rot2 (normalize a) t.
(** KDL::Rotation::RotX / RotY / RotZ *)
Definition RotX (t : R) : mat := M 1 0 0 0 (cos t) (- sin t) 0 (sin t) (cos t).
Definition RotY (t : R) : mat := M (cos t) 0 (sin t) 0 1 0 (- sin t) 0 (cos t).
Definition RotZ (t : R) : mat := M (cos t) (- sin t) 0 (sin t) (cos t) 0 0 0 1.

(** ** KDL::Frame *)
Record frame := F { fM : mat; fp : vec }.

Definition fid : frame := F mid vzero.
(** KDL::Frame * KDL::Vector *)
Definition fapp (h : frame) (v : vec) : vec := vadd (mv (fM h) v) (fp h).
(** KDL::Frame * KDL::Frame *)
Definition fmul (a b : frame) : frame := F (mm (fM a) (fM b)) (vadd (mv (fM a) (fp b)) (fp a)).
(** KDL::Frame::Inverse *)
Definition finv (a : frame) : frame := F (mT (fM a)) (vneg (mv (mT (fM a)) (fp a))).
(** KDL::Frame(Vector): pure translation *)
Definition ftrans (v : vec) : frame := F mid v.

(** ** KDL::Joint (joint inertia, damping and stiffness are not modelled) *)
Inductive jtype := JRotAxis | JRotX | JRotY | JRotZ | JTransAxis | JTransX | JTransY | JTransZ | JNone.

Record joint := J { j_type : jtype; j_scale : R; j_offset : R; j_axis : vec; j_origin : vec }.

(** KDL::Joint(origin, axis, type): divides the axis by its norm, scale 1, offset 0;
    it throws for types other than RotAxis and TransAxis, hence [option] *)
Definition mk_axis_joint (o a : vec) (t : jtype) : option joint :=
  match t with
  | JRotAxis | JTransAxis => Some (J t 1 0 (vscale (/ norm a) a) o)
  | _ => None
  end.

(** KDL::Joint(type, scale, offset): zero origin; it throws for RotAxis and TransAxis *)
Definition mk_joint (t : jtype) (scale offset : R) : option joint :=
  match t with
  | JRotAxis | JTransAxis => None
  | _ => Some (J t scale offset vzero vzero)
  end.

(** KDL::Joint::pose(q) *)
Definition joint_pose (j : joint) (q : R) : frame :=
  let x := j_scale j * q + j_offset j in
  match j_type j with
  | JRotAxis => F (Rot2 (j_axis j) x) (j_origin j)
  | JRotX => F (RotX x) vzero
  | JRotY => F (RotY x) vzero
  | JRotZ => F (RotZ x) vzero
  | JTransAxis => ftrans (vadd (j_origin j) (vscale x (j_axis j)))
  | JTransX => ftrans (V x 0 0)
  | JTransY => ftrans (V 0 x 0)
  | JTransZ => ftrans (V 0 0 x)
  | JNone => fid
  end.

(** KDL::Joint::JointAxis(): ignores the scale *)
Definition joint_axis (j : joint) : vec :=
  match j_type j with
  | JRotAxis | JTransAxis => j_axis j
  | JRotX | JTransX => V 1 0 0
  | JRotY | JTransY => V 0 1 0
  | JRotZ | JTransZ => V 0 0 1
  | JNone => vzero
  end.

(** KDL::Segment(joint, f_tip): the stored tip is joint.pose(0)^-1 * f_tip *)
Record segment := S { s_joint : joint; s_tip : frame }.
Definition mk_segment (j : joint) (f : frame) : segment := S j (fmul (finv (joint_pose j 0)) f).
(** KDL::Segment::pose(q) *)
Definition segment_pose (s : segment) (q : R) : frame := fmul (joint_pose (s_joint s) q) (s_tip s).

(** KDL::Chain *)
Definition chain := list segment.
Definition is_fixed (j : joint) : bool := match j_type j with JNone => true | _ => false end.
Definition nr_of_joints (c : chain) : nat := length (filter (fun s => negb (is_fixed (s_joint s))) c).

(** KDL::ChainFkSolverPos_recursive::JntToCart: [None] when the joint vector does not
    have one entry per moving joint *)
Fixpoint chain_fk (acc : frame) (c : chain) (q : list R) : option frame :=
  match c with
  | [] => match q with [] => Some acc | _ => None end
  | s :: c' =>
      if is_fixed (s_joint s) then chain_fk (fmul acc (segment_pose s 0)) c' q
      else match q with
           | [] => None
           | x :: q' => chain_fk (fmul acc (segment_pose s x)) c' q'
           end
  end.
Definition chain_fwd_kin (c : chain) (q : list R) : option frame := chain_fk fid c q.

(** ** Specification vocabulary *)
(** proper orthonormal matrix *)
Definition rotation_matrix (r : mat) : Prop := mm r (mT r) = mid /\ det r = 1.
(** rigid motion *)
Definition rigid (h : frame) : Prop := rotation_matrix (fM h).
Definition unit (a : vec) : Prop := dot a a = 1.
