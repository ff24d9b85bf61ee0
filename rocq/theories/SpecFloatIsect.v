(** * SpecFloatIsect.v - words of the statements about rounding errors of ray intersection *)

From Coq Require Import ZArith Reals.
From Flocq Require Import Core BinarySingleNaN.
From Verif Require Import Linalg Bundles RayIntersection Spec SpecIsect SpecFloatErr.
Local Open Scope R_scope.

(** Conversions between a format and double precision: [to64] is exact on finite
    numbers, [from64] rounds to nearest. *)
Definition exact_to64 {prec emax} (to64 : binary_float prec emax -> option (binary_float 53 1024)) : Prop :=
  forall x, is_finite x = true -> exists y, to64 x = Some y /\ is_finite y = true /\ B2R y = B2R x.
Definition rounds_from64 {prec emax} (from64 : binary_float 53 1024 -> binary_float prec emax) : Prop :=
  forall y, is_finite y = true ->
  Rabs (round radix2 (SpecFloat.fexp prec emax) ZnearestE (B2R y)) < bpow radix2 emax ->
  is_finite (from64 y) = true /\ B2R (from64 y) = round radix2 (SpecFloat.fexp prec emax) ZnearestE (B2R y).

(** The exact ray of a ray of finite floats; the real matrix of a matrix of them. *)
Definition ray_real {prec emax C} (r : Ray C (binary_float prec emax)) : Ray C R :=
  mkRay (vreal (ray_center r)) (vreal (ray_direction r)).
Definition mreal {prec emax} (m : M33 (binary_float prec emax)) : M33 R :=
  mkM33 (B2R (m00 m)) (B2R (m01 m)) (B2R (m02 m)) (B2R (m10 m)) (B2R (m11 m)) (B2R (m12 m))
        (B2R (m20 m)) (B2R (m21 m)) (B2R (m22 m)).
(** Center of size at most [M]; length of the direction between [2^-E] and [2^E]. *)
Definition ray_sized {prec emax C} (E : Z) (M : R) (r : Ray C (binary_float prec emax)) : Prop :=
  vec_sized M (ray_center r) /\ vec_finite (ray_direction r) /\
  bpow radix2 (- E) <= vlen (vreal (ray_direction r)) <= bpow radix2 E.
Definition mat_sized {prec emax} (B : R) (m : M33 (binary_float prec emax)) : Prop :=
  sized 0 B (m00 m) /\ sized 0 B (m01 m) /\ sized 0 B (m02 m) /\
  sized 0 B (m10 m) /\ sized 0 B (m11 m) /\ sized 0 B (m12 m) /\
  sized 0 B (m20 m) /\ sized 0 B (m21 m) /\ sized 0 B (m22 m).
Definition mat_near {prec emax} (e : R) (m : M33 (binary_float prec emax)) (a : M33 R) : Prop :=
  near e (m00 m) (m00 a) /\ near e (m01 m) (m01 a) /\ near e (m02 m) (m02 a) /\
  near e (m10 m) (m10 a) /\ near e (m11 m) (m11 a) /\ near e (m12 m) (m12 a) /\
  near e (m20 m) (m20 a) /\ near e (m21 m) (m21 a) /\ near e (m22 m) (m22 a).

(** What is returned for a matrix with entries of size at most [B] consists of two
    matrices within [e] of orthogonal ones, [U] and [Vt], and of non-negative singular
    values [s] such that [U diag(s) Vt] is within [eta] of the argument. *)
Definition svd_near (B eta e : R)
    (svd : M33 (binary_float 53 1024) -> bool -> bool -> binary_float 53 1024 -> nat -> option (SVD (binary_float 53 1024))) : Prop :=
  forall m eps n d, mat_sized B m -> svd m true true eps n = Some d ->
  exists fu fvt U Vt, svd_u d = Some fu /\ svd_vt d = Some fvt /\
    orthogonal U /\ orthogonal Vt /\ mat_near e fu U /\ mat_near e fvt Vt /\
    vec_finite (svd_s d) /\ 0 <= B2R (vx (svd_s d)) /\ 0 <= B2R (vy (svd_s d)) /\ 0 <= B2R (vz (svd_s d)) /\
    forall v, vdist (mv (mm (mm U (mdiag (vreal (svd_s d)))) Vt) v) (mv (mreal m) v) <= eta * vlen v.
