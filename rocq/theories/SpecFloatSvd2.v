(** * SpecFloatSvd2.v - vocabulary of the properties about the convergence of the singular value decomposition *)

From Coq Require Import Reals.
From Verif Require Import Scalar Linalg Spec.
Local Open Scope R_scope.

(** The squared lengths of the images of any two perpendicular directions add up to at least [c]
    (for the singular values s1 >= s2 >= s3 this means s2^2 + s3^2 >= c). *)
Definition pairs_at_least (c : R) (m : M33 R) : Prop :=
  forall v w, vlen v = 1 -> vlen w = 1 -> vdot v w = 0 -> c <= vlen (mv m v) ^ 2 + vlen (mv m w) ^ 2.
