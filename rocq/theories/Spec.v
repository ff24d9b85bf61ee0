(** * Spec.v - vocabulary of the property statements

    Textbook definitions over the real numbers and over lists, written without
    reference to the functions of the model (only its plain data records are
    used).  The property theorems are stated with these words. *)

From Coq Require Import Reals List.
From Verif Require Import Linalg.
Import ListNotations.
Local Open Scope R_scope.

(** ** Batches *)

(** [f] never panics and keeps the number of rows. *)
Definition total_same_rows {A B} (f : list A -> option (list B)) : Prop :=
  forall x, exists y, f x = Some y /\ length y = length x.
(** Converting a stacked batch = stacking the converted parts. *)
Definition rowwise {A B} (f : list A -> option (list B)) : Prop :=
  forall a b, exists ya yb, f a = Some ya /\ f b = Some yb /\ f (a ++ b) = Some (ya ++ yb).
(** The result does not depend on the rows at all. *)
Definition same_for_all {A B} (f : A -> option B) : Prop :=
  exists c, forall x, f x = Some c.

(** ** Real vectors *)
Definition vadd (a b : V3 R) := mkV3 (vx a + vx b) (vy a + vy b) (vz a + vz b).
Definition vsub (a b : V3 R) := mkV3 (vx a - vx b) (vy a - vy b) (vz a - vz b).
Definition vscl (s : R) (a : V3 R) := mkV3 (s * vx a) (s * vy a) (s * vz a).
Definition vopp (a : V3 R) := mkV3 (- vx a) (- vy a) (- vz a).
Definition vdot (a b : V3 R) := vx a * vx b + vy a * vy b + vz a * vz b.
Definition vcross (a b : V3 R) :=
  mkV3 (vy a * vz b - vz a * vy b) (vz a * vx b - vx a * vz b) (vx a * vy b - vy a * vx b).
Definition vlen (a : V3 R) := sqrt (vdot a a).
Definition vdist (a b : V3 R) := vlen (vsub a b).
Definition vO : V3 R := mkV3 0 0 0.
(** Triple product (signed volume). *)
Definition triple (a b c : V3 R) := vdot a (vcross b c).
(** The unit vector along [a]. *)
Definition vunit (a : V3 R) := vscl (/ vlen a) a.
Definition parallel (a b : V3 R) : Prop := vcross a b = vO.

(** ** Real matrices *)
Definition mv (m : M33 R) (v : V3 R) : V3 R :=
  mkV3 (m00 m * vx v + m01 m * vy v + m02 m * vz v)
       (m10 m * vx v + m11 m * vy v + m12 m * vz v)
       (m20 m * vx v + m21 m * vy v + m22 m * vz v).
Definition mrow0 (m : M33 R) := mkV3 (m00 m) (m01 m) (m02 m).
Definition mrow1 (m : M33 R) := mkV3 (m10 m) (m11 m) (m12 m).
Definition mrow2 (m : M33 R) := mkV3 (m20 m) (m21 m) (m22 m).
Definition mcol0 (m : M33 R) := mkV3 (m00 m) (m10 m) (m20 m).
Definition mcol1 (m : M33 R) := mkV3 (m01 m) (m11 m) (m21 m).
Definition mcol2 (m : M33 R) := mkV3 (m02 m) (m12 m) (m22 m).
Definition mm (a b : M33 R) : M33 R :=
  mkM33 (vdot (mrow0 a) (mcol0 b)) (vdot (mrow0 a) (mcol1 b)) (vdot (mrow0 a) (mcol2 b))
        (vdot (mrow1 a) (mcol0 b)) (vdot (mrow1 a) (mcol1 b)) (vdot (mrow1 a) (mcol2 b))
        (vdot (mrow2 a) (mcol0 b)) (vdot (mrow2 a) (mcol1 b)) (vdot (mrow2 a) (mcol2 b)).
Definition mtr (m : M33 R) : M33 R :=
  mkM33 (m00 m) (m10 m) (m20 m) (m01 m) (m11 m) (m21 m) (m02 m) (m12 m) (m22 m).
Definition mI : M33 R := mkM33 1 0 0 0 1 0 0 0 1.
Definition mdet (m : M33 R) : R := triple (mcol0 m) (mcol1 m) (mcol2 m).
Definition mscl (s : R) (m : M33 R) : M33 R :=
  mkM33 (s * m00 m) (s * m01 m) (s * m02 m) (s * m10 m) (s * m11 m) (s * m12 m)
        (s * m20 m) (s * m21 m) (s * m22 m).
Definition upper_triangular (m : M33 R) : Prop := m10 m = 0 /\ m20 m = 0 /\ m21 m = 0.
Definition orthogonal (m : M33 R) : Prop := mm (mtr m) m = mI /\ mm m (mtr m) = mI.
Definition is_rotation (m : M33 R) : Prop := orthogonal m /\ mdet m = 1.
(** Left 3x3 block and last column of a 3x4 matrix; the action on [[x;1]]. *)
Definition left33 (p : M34 R) : M33 R :=
  mkM33 (p00 p) (p01 p) (p02 p) (p10 p) (p11 p) (p12 p) (p20 p) (p21 p) (p22 p).
Definition col4 (p : M34 R) : V3 R := mkV3 (p03 p) (p13 p) (p23 p).
(** [[m | v]]. *)
Definition hstack (m : M33 R) (v : V3 R) : M34 R :=
  mkM34 (m00 m) (m01 m) (m02 m) (vx v) (m10 m) (m11 m) (m12 m) (vy v) (m20 m) (m21 m) (m22 m) (vz v).
(** The matrix of pinhole intrinsics. *)
Definition kmat (fx fy skew cx cy : R) : M33 R := mkM33 fx skew cx 0 fy cy 0 0 1.
Definition happly (p : M34 R) (x : V3 R) : V3 R := vadd (mv (left33 p) x) (col4 p).
(** Projection of a world point by a 3x4 matrix (meaningful if the third
    coordinate of [happly] is nonzero). *)
Definition hproject (p : M34 R) (x : V3 R) : V2 R :=
  let h := happly p x in mkV2 (vx h / vz h) (vy h / vz h).

(** ** Quaternions *)
Definition qnorm2 (q : Quat R) := qi q * qi q + qj q * qj q + qk q * qk q + qw q * qw q.
Definition unit_quat (q : Quat R) : Prop := qnorm2 q = 1.
Definition qopp (q : Quat R) := mkQuat (- qi q) (- qj q) (- qk q) (- qw q).
(** The rotation matrix of a unit quaternion. *)
Definition rotm (q : Quat R) : M33 R :=
  let x := qi q in let y := qj q in let z := qk q in let w := qw q in
  mkM33 (1 - 2 * (y*y + z*z)) (2 * (x*y - z*w)) (2 * (x*z + y*w))
        (2 * (x*y + z*w)) (1 - 2 * (x*x + z*z)) (2 * (y*z - x*w))
        (2 * (x*z - y*w)) (2 * (y*z + x*w)) (1 - 2 * (x*x + y*y)).

(** World to camera coordinates: rotate the offset from the center. *)
Definition to_camera (q : Quat R) (c x : V3 R) : V3 R := mv (rotm q) (vsub x c).
(** Camera to world coordinates. *)
Definition to_world (q : Quat R) (c y : V3 R) : V3 R := vadd (mv (mtr (rotm q)) y) c.
