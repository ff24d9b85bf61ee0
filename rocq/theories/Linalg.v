(** * Linalg.v - the parts of nalgebra 0.33 and approx 0.5 which cam-geom calls

    These crates are dependencies (/repo/Cargo.toml 20-27), their source is not
    part of /repo.  The definitions below transcribe the published algorithms
    (including the order of the floating point operations) of the functions
    named in each comment, at the dimensions at which cam-geom uses them. *)

From Coq Require Import List ZArith.
From Verif Require Import Scalar.
Import ListNotations.

Set Implicit Arguments.

(** A value that the Rust code computes without panicking is [Some]; a panic
    (here: an index out of range) is [None]. *)
Definition bind {A B} (x : option A) (f : A -> option B) : option B :=
  match x with Some a => f a | None => None end.
Notation "x <- e ;; f" := (bind e (fun x => f))
  (at level 61, e at next level, right associativity).

(** [for i in start..start+n { body }] acting on a mutable state. *)
Fixpoint for_range {St} (start n : nat) (body : nat -> St -> option St) (s : St) : option St :=
  match n with
  | O => Some s
  | S n' => s' <- body start s ;; for_range (S start) n' body s'
  end.

(** ** Small static vectors and matrices *)

(** [Vector3], [Point3], [RowVector3]. *)
Record V3 (T : Type) := mkV3 { vx : T; vy : T; vz : T }.
Arguments mkV3 {T}. Arguments vx {T}. Arguments vy {T}. Arguments vz {T}.

(** A row of an [N x 2] pixel matrix. *)
Record V2 (T : Type) := mkV2 { px : T; py : T }.
Arguments mkV2 {T}. Arguments px {T}. Arguments py {T}.

(** [Vector4]. *)
Record V4 (T : Type) := mkV4 { wx : T; wy : T; wz : T; ww : T }.
Arguments mkV4 {T}. Arguments wx {T}. Arguments wy {T}. Arguments wz {T}. Arguments ww {T}.

(** [Matrix3]; the constructor takes the entries in row-major order like
    [Matrix3::new]. *)
Record M33 (T : Type) := mkM33 {
  m00 : T; m01 : T; m02 : T;
  m10 : T; m11 : T; m12 : T;
  m20 : T; m21 : T; m22 : T }.
Arguments mkM33 {T}.
Arguments m00 {T}. Arguments m01 {T}. Arguments m02 {T}.
Arguments m10 {T}. Arguments m11 {T}. Arguments m12 {T}.
Arguments m20 {T}. Arguments m21 {T}. Arguments m22 {T}.

(** [SMatrix<R,3,4>], row-major like [SMatrix::<R,3,4>::new]. *)
Record M34 (T : Type) := mkM34 {
  p00 : T; p01 : T; p02 : T; p03 : T;
  p10 : T; p11 : T; p12 : T; p13 : T;
  p20 : T; p21 : T; p22 : T; p23 : T }.
Arguments mkM34 {T}.
Arguments p00 {T}. Arguments p01 {T}. Arguments p02 {T}. Arguments p03 {T}.
Arguments p10 {T}. Arguments p11 {T}. Arguments p12 {T}. Arguments p13 {T}.
Arguments p20 {T}. Arguments p21 {T}. Arguments p22 {T}. Arguments p23 {T}.

(** [SMatrix<R,2,3>], row-major. *)
Record M23 (T : Type) := mkM23 {
  j00 : T; j01 : T; j02 : T;
  j10 : T; j11 : T; j12 : T }.
Arguments mkM23 {T}.
Arguments j00 {T}. Arguments j01 {T}. Arguments j02 {T}.
Arguments j10 {T}. Arguments j11 {T}. Arguments j12 {T}.

(** [Quaternion]; nalgebra stores the coordinates in the order [i, j, k, w]. *)
Record Quat (T : Type) := mkQuat { qi : T; qj : T; qk : T; qw : T }.
Arguments mkQuat {T}. Arguments qi {T}. Arguments qj {T}. Arguments qk {T}. Arguments qw {T}.

(** [Isometry3]: first rotate, then translate. *)
Record Iso (T : Type) := mkIso { iso_rot : Quat T; iso_trans : V3 T }.
Arguments mkIso {T}. Arguments iso_rot {T}. Arguments iso_trans {T}.

(** ** Checked indexing *)

(** [v[j]] on a 3-vector; panics for [j >= 3]. *)
Definition v3_get {T} (v : V3 T) (j : nat) : option T :=
  match j with
  | 0 => Some (vx v) | 1 => Some (vy v) | 2 => Some (vz v) | _ => None
  end.
Definition v3_set {T} (v : V3 T) (j : nat) (t : T) : option (V3 T) :=
  match j with
  | 0 => Some (mkV3 t (vy v) (vz v))
  | 1 => Some (mkV3 (vx v) t (vz v))
  | 2 => Some (mkV3 (vx v) (vy v) t)
  | _ => None
  end.
Definition v2_get {T} (v : V2 T) (j : nat) : option T :=
  match j with 0 => Some (px v) | 1 => Some (py v) | _ => None end.
Definition v2_set {T} (v : V2 T) (j : nat) (t : T) : option (V2 T) :=
  match j with
  | 0 => Some (mkV2 t (py v)) | 1 => Some (mkV2 (px v) t) | _ => None
  end.

(** Replacing a row; panics if the row does not exist. *)
Fixpoint upd_row {A} (l : list A) (i : nat) (f : A -> option A) : option (list A) :=
  match l, i with
  | [], _ => None
  | x :: r, O => x' <- f x ;; Some (x' :: r)
  | x :: r, S i' => r' <- upd_row r i' f ;; Some (x :: r')
  end.

(** [m[(i, j)]] and [m[(i, j)] = t] on an [N x 3] matrix (a list of rows). *)
Definition mat3_get {T} (m : list (V3 T)) (i j : nat) : option T :=
  r <- nth_error m i ;; v3_get r j.
Definition mat3_set {T} (m : list (V3 T)) (i j : nat) (t : T) : option (list (V3 T)) :=
  upd_row m i (fun r => v3_set r j t).
(** The same on an [N x 2] matrix. *)
Definition mat2_get {T} (m : list (V2 T)) (i j : nat) : option T :=
  r <- nth_error m i ;; v2_get r j.
Definition mat2_set {T} (m : list (V2 T)) (i j : nat) (t : T) : option (list (V2 T)) :=
  upd_row m i (fun r => v2_set r j t).

(** [m[(i, j)]] and [m[(i, j)] = t] on a [Matrix3]. *)
Definition m33_row {T} (m : M33 T) (i : nat) : option (V3 T) :=
  match i with
  | 0 => Some (mkV3 (m00 m) (m01 m) (m02 m))
  | 1 => Some (mkV3 (m10 m) (m11 m) (m12 m))
  | 2 => Some (mkV3 (m20 m) (m21 m) (m22 m))
  | _ => None
  end.
Definition m33_get {T} (m : M33 T) (i j : nat) : option T :=
  r <- m33_row m i ;; v3_get r j.
Definition m33_of_rows {T} (a b c : V3 T) : M33 T :=
  mkM33 (vx a) (vy a) (vz a) (vx b) (vy b) (vz b) (vx c) (vy c) (vz c).
Definition m33_set {T} (m : M33 T) (i j : nat) (t : T) : option (M33 T) :=
  r0 <- m33_row m 0 ;; r1 <- m33_row m 1 ;; r2 <- m33_row m 2 ;;
  match i with
  | 0 => r <- v3_set r0 j t ;; Some (m33_of_rows r r1 r2)
  | 1 => r <- v3_set r1 j t ;; Some (m33_of_rows r0 r r2)
  | 2 => r <- v3_set r2 j t ;; Some (m33_of_rows r0 r1 r)
  | _ => None
  end.

Section Ops.
Context {T : Type} {O : Ops T}.
Local Open Scope S_scope.

(** [OMatrix::zeros_generic(n, 3)] and [(n, 2)]. *)
Definition v3_zero : V3 T := mkV3 o_zero o_zero o_zero.
Definition v2_zero : V2 T := mkV2 o_zero o_zero.
Definition zeros3 (n : nat) : list (V3 T) := repeat v3_zero n.
Definition zeros2 (n : nat) : list (V2 T) := repeat v2_zero n.

(** ** Vector3 *)
Definition v3_add (a b : V3 T) : V3 T := mkV3 (vx a + vx b) (vy a + vy b) (vz a + vz b).
Definition v3_sub (a b : V3 T) : V3 T := mkV3 (vx a - vx b) (vy a - vy b) (vz a - vz b).
Definition v3_neg (a : V3 T) : V3 T := mkV3 (- vx a) (- vy a) (- vz a).
(** [v * s] *)
Definition v3_scale (a : V3 T) (s : T) : V3 T := mkV3 (vx a * s) (vy a * s) (vz a * s).
(** [v.unscale(s)] *)
Definition v3_unscale (a : V3 T) (s : T) : V3 T := mkV3 (vx a / s) (vy a / s) (vz a / s).
(** [Vector3::dot]: [a + b + c] for three rows. *)
Definition v3_dot (a b : V3 T) : T := vx a * vx b + vy a * vy b + vz a * vz b.
(** [Vector3::cross]. *)
Definition v3_cross (a b : V3 T) : V3 T :=
  mkV3 (vy a * vz b - vz a * vy b)
       (vz a * vx b - vx a * vz b)
       (vx a * vy b - vy a * vx b).
(** [Matrix::norm_squared] and [Matrix::norm]. (nalgebra adds the dot product to
    an initial 0, which changes nothing.) *)
Definition v3_norm_squared (a : V3 T) : T := v3_dot a a.
Definition v3_norm (a : V3 T) : T := o_sqrt (v3_norm_squared a).
(** [Matrix::normalize] and [Unit::new_normalize]: divide by the norm, without
    any check for a zero norm. *)
Definition v3_normalize (a : V3 T) : V3 T := v3_unscale a (v3_norm a).

(** ** Matrices *)
Definition m33_transpose (m : M33 T) : M33 T :=
  mkM33 (m00 m) (m10 m) (m20 m) (m01 m) (m11 m) (m21 m) (m02 m) (m12 m) (m22 m).
Definition m33_map (f : T -> T) (m : M33 T) : M33 T :=
  mkM33 (f (m00 m)) (f (m01 m)) (f (m02 m)) (f (m10 m)) (f (m11 m)) (f (m12 m))
        (f (m20 m)) (f (m21 m)) (f (m22 m)).
Definition m33_neg (m : M33 T) : M33 T := m33_map o_neg m.
Definition m33_scale (m : M33 T) (s : T) : M33 T := m33_map (fun x => x * s) m.
(** [gemv]: columns are accumulated from left to right. *)
Definition m33_mulv (m : M33 T) (v : V3 T) : V3 T :=
  mkV3 (m00 m * vx v + m01 m * vy v + m02 m * vz v)
       (m10 m * vx v + m11 m * vy v + m12 m * vz v)
       (m20 m * vx v + m21 m * vy v + m22 m * vz v).
Definition m33_mul (a b : M33 T) : M33 T :=
  mkM33
    (m00 a * m00 b + m01 a * m10 b + m02 a * m20 b)
    (m00 a * m01 b + m01 a * m11 b + m02 a * m21 b)
    (m00 a * m02 b + m01 a * m12 b + m02 a * m22 b)
    (m10 a * m00 b + m11 a * m10 b + m12 a * m20 b)
    (m10 a * m01 b + m11 a * m11 b + m12 a * m21 b)
    (m10 a * m02 b + m11 a * m12 b + m12 a * m22 b)
    (m20 a * m00 b + m21 a * m10 b + m22 a * m20 b)
    (m20 a * m01 b + m21 a * m11 b + m22 a * m21 b)
    (m20 a * m02 b + m21 a * m12 b + m22 a * m22 b).
(** [Matrix::determinant] for three rows. *)
Definition m33_det (m : M33 T) : T :=
  m00 m * (m11 m * m22 m - m21 m * m12 m)
  - m01 m * (m10 m * m22 m - m20 m * m12 m)
  + m02 m * (m10 m * m21 m - m20 m * m11 m).
(** [Matrix3 * SMatrix<3,4>]. *)
Definition m33_mul34 (a : M33 T) (b : M34 T) : M34 T :=
  mkM34
    (m00 a * p00 b + m01 a * p10 b + m02 a * p20 b)
    (m00 a * p01 b + m01 a * p11 b + m02 a * p21 b)
    (m00 a * p02 b + m01 a * p12 b + m02 a * p22 b)
    (m00 a * p03 b + m01 a * p13 b + m02 a * p23 b)
    (m10 a * p00 b + m11 a * p10 b + m12 a * p20 b)
    (m10 a * p01 b + m11 a * p11 b + m12 a * p21 b)
    (m10 a * p02 b + m11 a * p12 b + m12 a * p22 b)
    (m10 a * p03 b + m11 a * p13 b + m12 a * p23 b)
    (m20 a * p00 b + m21 a * p10 b + m22 a * p20 b)
    (m20 a * p01 b + m21 a * p11 b + m22 a * p21 b)
    (m20 a * p02 b + m21 a * p12 b + m22 a * p22 b)
    (m20 a * p03 b + m21 a * p13 b + m22 a * p23 b).
Definition m34_map (f : T -> T) (m : M34 T) : M34 T :=
  mkM34 (f (p00 m)) (f (p01 m)) (f (p02 m)) (f (p03 m))
        (f (p10 m)) (f (p11 m)) (f (p12 m)) (f (p13 m))
        (f (p20 m)) (f (p21 m)) (f (p22 m)) (f (p23 m)).
Definition m34_neg (m : M34 T) : M34 T := m34_map o_neg m.
(** [m / s] *)
Definition m34_div (m : M34 T) (s : T) : M34 T := m34_map (fun x => x / s) m.
(** [SMatrix<3,4> * Vector4]. *)
Definition m34_mulv (m : M34 T) (v : V4 T) : V3 T :=
  mkV3 (p00 m * wx v + p01 m * wy v + p02 m * wz v + p03 m * ww v)
       (p10 m * wx v + p11 m * wy v + p12 m * wz v + p13 m * ww v)
       (p20 m * wx v + p21 m * wy v + p22 m * wz v + p23 m * ww v).
(** [m.fixed_view::<3,3>(0,0)] *)
Definition m34_view33 (m : M34 T) : M33 T :=
  mkM33 (p00 m) (p01 m) (p02 m) (p10 m) (p11 m) (p12 m) (p20 m) (p21 m) (p22 m).
(** [m.remove_column(c)] for c = 0..3. *)
Definition m34_remove_col0 (m : M34 T) : M33 T :=
  mkM33 (p01 m) (p02 m) (p03 m) (p11 m) (p12 m) (p13 m) (p21 m) (p22 m) (p23 m).
Definition m34_remove_col1 (m : M34 T) : M33 T :=
  mkM33 (p00 m) (p02 m) (p03 m) (p10 m) (p12 m) (p13 m) (p20 m) (p22 m) (p23 m).
Definition m34_remove_col2 (m : M34 T) : M33 T :=
  mkM33 (p00 m) (p01 m) (p03 m) (p10 m) (p11 m) (p13 m) (p20 m) (p21 m) (p23 m).
Definition m34_remove_col3 (m : M34 T) : M33 T :=
  mkM33 (p00 m) (p01 m) (p02 m) (p10 m) (p11 m) (p12 m) (p20 m) (p21 m) (p22 m).

(** [Point3::to_homogeneous] *)
Definition v3_to_homogeneous (v : V3 T) : V4 T := mkV4 (vx v) (vy v) (vz v) o_one.

(** ** Unit quaternions *)
Definition q_vec (q : Quat T) : V3 T := mkV3 (qi q) (qj q) (qk q).
Definition q_neg (q : Quat T) : Quat T := mkQuat (- qi q) (- qj q) (- qk q) (- qw q).
(** [UnitQuaternion::inverse] is the conjugate. *)
Definition q_inverse (q : Quat T) : Quat T := mkQuat (- qi q) (- qj q) (- qk q) (qw q).
(** [Quaternion * Quaternion]. *)
Definition q_mul (a b : Quat T) : Quat T :=
  mkQuat
    (qw a * qi b + qi a * qw b + qj a * qk b - qk a * qj b)
    (qw a * qj b - qi a * qk b + qj a * qw b + qk a * qi b)
    (qw a * qk b + qi a * qj b - qj a * qi b + qk a * qw b)
    (qw a * qw b - qi a * qi b - qj a * qj b - qk a * qk b).
(** [UnitQuaternion * Vector3]: [t = 2 (v x p)], result [w t + v x t + p]. *)
Definition q_rotate (q : Quat T) (p : V3 T) : V3 T :=
  let t := v3_scale (v3_cross (q_vec q) p) o_two in
  let cross := v3_cross (q_vec q) t in
  v3_add (v3_add (v3_scale t (qw q)) cross) p.
(** [UnitQuaternion::to_rotation_matrix]. *)
Definition q_to_rotation_matrix (q : Quat T) : M33 T :=
  let i := qi q in let j := qj q in let k := qk q in let w := qw q in
  let sw := w * w in let si := i * i in let sj := j * j in let sk := k * k in
  let ij := i * j * o_two in let wk := w * k * o_two in let wj := w * j * o_two in
  let ik := i * k * o_two in let jk := j * k * o_two in let wi := w * i * o_two in
  mkM33 (sw + si - sj - sk) (ij - wk) (wj + ik)
        (wk + ij) (sw - si + sj - sk) (jk - wi)
        (ik - wj) (wi + jk) (sw - si - sj + sk).
(** [UnitQuaternion::from_axis_angle]. *)
Definition q_from_axis_angle (axis : V3 T) (angle : T) : Quat T :=
  let h := angle / o_two in
  let s := o_sin h in let c := o_cos h in
  mkQuat (vx axis * s) (vy axis * s) (vz axis * s) c.
(** [UnitQuaternion::from_rotation_matrix]. *)
Definition q_from_rotation_matrix (m : M33 T) : Quat T :=
  let tr := m00 m + m11 m + m22 m in
  if o_zero <? tr then
    let denom := o_sqrt (tr + o_one) * o_two in
    mkQuat ((m21 m - m12 m) / denom) ((m02 m - m20 m) / denom) ((m10 m - m01 m) / denom)
           (o_quarter * denom)
  else if andb (m11 m <? m00 m) (m22 m <? m00 m) then
    let denom := o_sqrt (o_one + m00 m - m11 m - m22 m) * o_two in
    mkQuat (o_quarter * denom) ((m01 m + m10 m) / denom) ((m02 m + m20 m) / denom)
           ((m21 m - m12 m) / denom)
  else if m22 m <? m11 m then
    let denom := o_sqrt (o_one + m11 m - m00 m - m22 m) * o_two in
    mkQuat ((m01 m + m10 m) / denom) (o_quarter * denom) ((m12 m + m21 m) / denom)
           ((m02 m - m20 m) / denom)
  else
    let denom := o_sqrt (o_one + m22 m - m00 m - m11 m) * o_two in
    mkQuat ((m02 m + m20 m) / denom) ((m12 m + m21 m) / denom) (o_quarter * denom)
           ((m10 m - m01 m) / denom).
(** [Rotation3::face_towards(dir, up)]. *)
Definition rot_face_towards (dir up : V3 T) : M33 T :=
  let zaxis := v3_normalize dir in
  let xaxis := v3_normalize (v3_cross up zaxis) in
  let yaxis := v3_normalize (v3_cross zaxis xaxis) in
  mkM33 (vx xaxis) (vx yaxis) (vx zaxis)
        (vy xaxis) (vy yaxis) (vy zaxis)
        (vz xaxis) (vz yaxis) (vz zaxis).
(** [UnitQuaternion::look_at_lh(dir, up)] = [face_towards(dir, up).inverse()]. *)
Definition q_look_at_lh (dir up : V3 T) : Quat T :=
  q_inverse (q_from_rotation_matrix (rot_face_towards dir up)).

(** ** Isometries *)
(** [Isometry3::transform_point]: rotate, then add the translation. *)
Definition iso_transform_point (p : Iso T) (v : V3 T) : V3 T :=
  v3_add (q_rotate (iso_rot p) v) (iso_trans p).
(** [Isometry3::transform_vector]: rotate only. *)
Definition iso_transform_vector (p : Iso T) (v : V3 T) : V3 T := q_rotate (iso_rot p) v.
(** [Isometry3::inverse]: invert both parts, then rotate the negated translation. *)
Definition iso_inverse (p : Iso T) : Iso T :=
  let r := q_inverse (iso_rot p) in
  mkIso r (q_rotate r (v3_neg (iso_trans p))).

(** ** approx 0.5 *)
(** [f64::relative_eq(&self, other, epsilon, max_relative)] with the defaults
    [epsilon = max_relative = EPSILON]; [relative_ne!] is its negation. *)
Definition relative_eq (a b : T) : bool :=
  if o_eqb a b then true
  else if orb (o_isinf a) (o_isinf b) then false
  else
    let abs_diff := o_abs (a - b) in
    if abs_diff <=? o_eps then true
    else
      let abs_a := o_abs a in
      let abs_b := o_abs b in
      let largest := if abs_a <? abs_b then abs_b else abs_a in
      abs_diff <=? largest * o_eps.
Definition relative_ne (a b : T) : bool := negb (relative_eq a b).
(** [f64::abs_diff_eq(&self, other, epsilon)]. *)
Definition abs_diff_eq (a b eps : T) : bool := o_abs (a - b) <=? eps.

End Ops.
