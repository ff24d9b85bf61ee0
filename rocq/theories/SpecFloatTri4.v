(** * SpecFloatTri4.v - words of the statement about triangulation with cameras given by matrices *)

From Coq Require Import ZArith Reals List.
From Flocq Require Import Core BinarySingleNaN.
From Verif Require Import Scalar Linalg Bundles Extrinsics Perspective Camera RealBase Spec SpecGeom SpecFloatErr SpecFloatMat SpecFloatRQ.
Import ListNotations.
Local Open Scope R_scope.

(** A camera given to the program by a matrix of doubles [mc_p], meant to be s K [R | -R c],
    and the pixel [mc_px] at which the point is observed. *)
Record mcam := mkMcam {
  mc_p : M34 (binary_float 53 1024); mc_s : R; mc_fx : R; mc_fy : R; mc_skew : R; mc_cx : R; mc_cy : R;
  mc_q : Quat R; mc_c : V3 R; mc_px : V2 (binary_float 53 1024) }.
Definition mc_exact (a : mcam) : M34 R := scaled_matrix (mc_s a) (mc_fx a) (mc_fy a) (mc_skew a) (mc_cx a) (mc_cy a) (mc_q a) (mc_c a).
(** Scales of either sign, focal lengths from 500 to 2000, skew up to 400, principal point
    within a focal length of the origin, centers up to 10; the entries of the matrix rounded
    to doubles; the point at depths from 1 to [Z]; the pixel of size up to 2000 and within
    [eps] of the projection by the exact matrix. *)
Definition good_mcam (Z eps : R) (X : V3 R) (a : mcam) : Prop :=
  / 1000000 <= Rabs (mc_s a) <= 1000000 /\ 500 <= mc_fx a <= 2000 /\ 500 <= mc_fy a <= 2000 /\ Rabs (mc_skew a) <= 400 /\
  Rabs (mc_cx a) <= mc_fx a /\ Rabs (mc_cy a) <= mc_fy a /\ unit_quat (mc_q a) /\ vlen (mc_c a) <= 10 /\
  entries_near (bpow radix2 (-52)) (mc_p a) (mc_exact a) /\ 1 <= depth (mc_q a) (mc_c a) X <= Z /\
  sized 0 2000 (px (mc_px a)) /\ sized 0 2000 (py (mc_px a)) /\ pix_near eps (mc_px a) (hproject (mc_exact a) X).
(** The ray of the pixel, in the camera which the program finds in the matrix. *)
Definition mc_ray {O : Ops (binary_float 53 1024)} (a : mcam) : option (Ray WorldFrame (binary_float 53 1024)) :=
  match from_perspective_matrix (mc_p a) with
  | Some (Ok cam) => rb <- pixel_to_world cam (mkPixels [mc_px a]) ;; @to_single_ray _ _ _ SharedOrigin_Bundle rb
  | _ => None
  end.
