(** * SpecSvd.v - vocabulary of the properties about the singular value decomposition *)

From Coq Require Import Reals List.
From Verif Require Import Scalar Linalg RayIntersection Spec SpecIsect.
Local Open Scope R_scope.

(** [m] lengthens no vector by more than the factor [k], and shortens none below the factor [lam]. *)
Definition at_most (k : R) (m : M33 R) : Prop := forall v, vlen (mv m v) <= k * vlen v.
Definition at_least (lam : R) (m : M33 R) : Prop := forall v, lam * vlen v <= vlen (mv m v).

(** [d] has both orthogonal factors and nonnegative values, and its product is within [eta] of [m]. *)
Definition decomposes (eta : R) (m : M33 R) (d : SVD R) : Prop :=
  exists u vt, svd_u d = Some u /\ svd_vt d = Some vt /\ orthogonal u /\ orthogonal vt /\
    0 <= vx (svd_s d) /\ 0 <= vy (svd_s d) /\ 0 <= vz (svd_s d) /\
    forall v, vdist (mv (mm (mm u (mdiag (svd_s d))) vt) v) (mv m v) <= eta * vlen v.
