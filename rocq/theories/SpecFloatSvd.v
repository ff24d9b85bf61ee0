(** * SpecFloatSvd.v - vocabulary of the properties about the rounding of the singular value decomposition *)

From Coq Require Import Reals ZArith.
From Flocq Require Import Core BinarySingleNaN.
From Verif Require Import Scalar Linalg RayIntersection Spec SpecIsect SpecFloatErr SpecFloatIsect.
Local Open Scope R_scope.
Local Notation F := (binary_float 53 1024).

Definition mat_finite (m : M33 F) : Prop :=
  is_finite (m00 m) = true /\ is_finite (m01 m) = true /\ is_finite (m02 m) = true /\
  is_finite (m10 m) = true /\ is_finite (m11 m) = true /\ is_finite (m12 m) = true /\
  is_finite (m20 m) = true /\ is_finite (m21 m) = true /\ is_finite (m22 m) = true.
(** The values of [d] are finite and not negative.  Its factors are within [e], entry by
    entry, of orthogonal matrices whose product with the values is within [eta] of [m]. *)
Definition decomposes64 (eta e : R) (m : M33 F) (d : SVD F) : Prop :=
  exists fu fvt U Vt, svd_u d = Some fu /\ svd_vt d = Some fvt /\
    orthogonal U /\ orthogonal Vt /\ mat_near e fu U /\ mat_near e fvt Vt /\
    vec_finite (svd_s d) /\ 0 <= B2R (vx (svd_s d)) /\ 0 <= B2R (vy (svd_s d)) /\ 0 <= B2R (vz (svd_s d)) /\
    forall v, vdist (mv (mm (mm U (mdiag (vreal (svd_s d)))) Vt) v) (mv (mreal m) v) <= eta * vlen v.
