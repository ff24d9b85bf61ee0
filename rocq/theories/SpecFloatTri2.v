(** * SpecFloatTri2.v - words of the statement about triangulation from arbitrary pixels in IEEE arithmetic *)

From Coq Require Import ZArith Reals List.
From Flocq Require Import Core BinarySingleNaN.
From Verif Require Import Scalar Linalg Bundles Perspective Orthographic RealBase Spec SpecGeom SpecFloatErr SpecFloatTri.
Local Open Scope R_scope.

Section S.
Context {prec emax : Z} {O : Ops (binary_float prec emax)}.
Local Notation F := (binary_float prec emax).

(** [r] is the ray which the program reports for some pixel of size at most [P], of a
    perspective or orthographic camera with center of size at most [M], parameters of size
    at most [P], quaternion within [8 w] of a unit quaternion, and focal lengths or scales
    at least [f].  Nothing ties the pixel to a point of the scene. *)
Definition any_view (w M P f : R) (r : Ray WorldFrame F) : Prop :=
  exists qh q c p, unit_quat q /\ quat_near (8 * w) qh q /\ vec_sized M c /\ sized 0 P (px p) /\ sized 0 P (py p) /\
   ((exists k, persp_sized P k /\ sized 0 (Rabs (B2R (pp_fy k))) (pp_skew k) /\
       f <= Rabs (B2R (pp_fx k)) /\ f <= Rabs (B2R (pp_fy k)) /\ persp_ray k qh c p = Some r) \/
    (exists k, ortho_sized P k /\ f <= Rabs (B2R (op_sx k)) /\ f <= Rabs (B2R (op_sy k)) /\ ortho_ray k qh c p = Some r)).

(** A perspective camera and a pixel: center up to 100, focal lengths from 500 to 10000,
    skew up to 500, pixel up to 10000. *)
Definition good_view (w : R) (a : fcam prec emax * V2 F) : Prop :=
  let c := fst a in
  unit_quat (fc_q c) /\ quat_near (8 * w) (fc_qh c) (fc_q c) /\ vec_sized 100 (fc_c c) /\
  sized 500 10000 (pp_fx (fc_k c)) /\ sized 500 10000 (pp_fy (fc_k c)) /\ sized 0 500 (pp_skew (fc_k c)) /\
  sized 0 10000 (pp_cx (fc_k c)) /\ sized 0 10000 (pp_cy (fc_k c)) /\ sized 0 10000 (px (snd a)) /\ sized 0 10000 (py (snd a)).
End S.
