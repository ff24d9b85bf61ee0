(** * SpecFloatRQ.v - words of the statements about rounding errors of from_perspective_matrix *)

From Coq Require Import ZArith Reals.
From Flocq Require Import Core BinarySingleNaN.
From Verif Require Import Linalg Spec SpecFloatErr.
Local Open Scope R_scope.

(** the lengths of the first two rows of the matrix of intrinsics (the third has length 1) *)
Definition kr0 (fx skew cx : R) : R := vlen (mkV3 fx skew cx).
Definition kr1 (fy cy : R) : R := vlen (mkV3 fy cy 0).
(** the determinant of the matrix of intrinsics by the product of the lengths of its rows: how far the rows
    are from being linearly dependent (1 if they are perpendicular) *)
Definition kspread (fx fy skew cx cy : R) : R := fx * fy / (kr0 fx skew cx * kr1 fy cy).
(** the matrix s K [R | -R c] *)
Definition scaled_matrix (s fx fy skew cx cy : R) (q : Quat R) (c : V3 R) : M34 R :=
  hstack (mscl s (mm (kmat fx fy skew cx cy) (rotm q))) (mv (mscl s (mm (kmat fx fy skew cx cy) (rotm q))) (vopp c)).

Section S.
Context {prec emax : Z}.
Local Notation F := (binary_float prec emax).
(** a row of four floats against a row of four reals: the first three together are off by at most
    [D] times the length of the real ones, the fourth by at most [D * C] times that length *)
Definition row_near (D C : R) (a b c t : F) (x y z w : R) : Prop :=
  (is_finite a = true /\ is_finite b = true /\ is_finite c = true) /\
  vlen (mkV3 (B2R a - x) (B2R b - y) (B2R c - z)) <= D * vlen (mkV3 x y z) /\ near (D * C * vlen (mkV3 x y z)) t w.
Definition rows_near (D C : R) (p : M34 F) (x : M34 R) : Prop :=
  row_near D C (p00 p) (p01 p) (p02 p) (p03 p) (p00 x) (p01 x) (p02 x) (p03 x) /\
  row_near D C (p10 p) (p11 p) (p12 p) (p13 p) (p10 x) (p11 x) (p12 x) (p13 x) /\
  row_near D C (p20 p) (p21 p) (p22 p) (p23 p) (p20 x) (p21 x) (p22 x) (p23 x).
(** every entry off by at most [D] times its size *)
Definition entries_near (D : R) (p : M34 F) (x : M34 R) : Prop :=
  let n (a : F) (b : R) := near (D * Rabs b) a b in
  (n (p00 p) (p00 x) /\ n (p01 p) (p01 x) /\ n (p02 p) (p02 x) /\ n (p03 p) (p03 x)) /\
  (n (p10 p) (p10 x) /\ n (p11 p) (p11 x) /\ n (p12 p) (p12 x) /\ n (p13 p) (p13 x)) /\
  (n (p20 p) (p20 x) /\ n (p21 p) (p21 x) /\ n (p22 p) (p22 x) /\ n (p23 p) (p23 x)).
End S.
