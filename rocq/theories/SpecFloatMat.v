(** * SpecFloatMat.v - words of the statements about rounding errors of camera matrices and Jacobians *)

From Coq Require Import ZArith Reals.
From Flocq Require Import Core BinarySingleNaN.
From Verif Require Import Linalg Perspective Spec SpecFloatErr.
Local Open Scope R_scope.

Section S.
Context {prec emax : Z}.
Local Notation F := (binary_float prec emax).

(** the intrinsics matrix of the stored parameters *)
Definition kreal (k : PerspectiveParams F) : M33 R :=
  kmat (B2R (pp_fx k)) (B2R (pp_fy k)) (B2R (pp_skew k)) (B2R (pp_cx k)) (B2R (pp_cy k)).
(** the exact matrix K [R | t] *)
Definition exact_matrix (k : PerspectiveParams F) (q : Quat R) (c : V3 R) : M34 R :=
  hstack (mm (kreal k) (rotm q)) (mv (kreal k) (vopp (mv (rotm q) c))).
(** the left part of the matrix [p] is off from [x / s] by at most [e1], the last column by at most [e2] *)
Definition matrix_near (e1 e2 : R) (p : M34 F) (x : M34 R) (s : R) : Prop :=
  (near e1 (p00 p) (p00 x / s) /\ near e1 (p01 p) (p01 x / s) /\ near e1 (p02 p) (p02 x / s) /\ near e2 (p03 p) (p03 x / s)) /\
  (near e1 (p10 p) (p10 x / s) /\ near e1 (p11 p) (p11 x / s) /\ near e1 (p12 p) (p12 x / s) /\ near e2 (p13 p) (p13 x / s)) /\
  (near e1 (p20 p) (p20 x / s) /\ near e1 (p21 p) (p21 x / s) /\ near e1 (p22 p) (p22 x / s) /\ near e2 (p23 p) (p23 x / s)).
(** [j] is off by at most [e] from the derivative of [f] at [x] in the direction [o] *)
Definition derivative_near (e : R) (j : F) (f : V3 R -> R) (x o : V3 R) : Prop :=
  exists l, derivable_pt_lim (fun t => f (vadd x (vscl t o))) 0 l /\ near e j l.
End S.
