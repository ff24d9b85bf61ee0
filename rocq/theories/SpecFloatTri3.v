(** * SpecFloatTri3.v - words of the statements about triangulation in single precision *)

From Coq Require Import ZArith Reals List.
From Flocq Require Import Core BinarySingleNaN.
From Verif Require Import Scalar Linalg Bundles Extrinsics Perspective Orthographic Camera RealBase Spec SpecGeom SpecFloatErr SpecFloatTri.
Local Open Scope R_scope.

(** In single precision: centers up to 20, focal lengths from 500 to 2000, skew up to 500,
    the point at a depth between [d] and [Z] and its pixel within the square of size 1990. *)
Definition good_cam32 (d Z : R) (X : V3 (binary_float 24 128)) (a : fcam 24 128) : Prop :=
  unit_quat (fc_q a) /\ quat_near (8 * bpow radix2 (- (24))) (fc_qh a) (fc_q a) /\ vec_sized 20 (fc_c a) /\
  sized 500 2000 (pp_fx (fc_k a)) /\ sized 500 2000 (pp_fy (fc_k a)) /\ sized 0 500 (pp_skew (fc_k a)) /\
  sized 0 2000 (pp_cx (fc_k a)) /\ sized 0 2000 (pp_cy (fc_k a)) /\
  d <= depth (fc_q a) (vreal (fc_c a)) (vreal X) <= Z /\
  pix_within 1990 (pinhole (fc_k a) (to_camera (fc_q a) (vreal (fc_c a)) (vreal X))).

(** An orthographic camera as given to the program, and the unit quaternion [fo_q] meant by [fo_qh]. *)
Record focam (prec emax : Z) := mkFocam {
  fo_k : OrthographicParams (binary_float prec emax); fo_qh : Quat (binary_float prec emax); fo_q : Quat R; fo_c : V3 (binary_float prec emax) }.
Arguments fo_k {prec emax}. Arguments fo_qh {prec emax}. Arguments fo_q {prec emax}. Arguments fo_c {prec emax}.
(** In double precision: centers up to 100, scales from 500 to 10000, the pixel of the point within the square of size 9999. *)
Definition good_ortho (X : V3 (binary_float 53 1024)) (a : focam 53 1024) : Prop :=
  unit_quat (fo_q a) /\ quat_near (8 * bpow radix2 (- (53))) (fo_qh a) (fo_q a) /\ vec_sized 100 (fo_c a) /\
  sized 500 10000 (op_sx (fo_k a)) /\ sized 500 10000 (op_sy (fo_k a)) /\
  sized 0 10000 (op_cx (fo_k a)) /\ sized 0 10000 (op_cy (fo_k a)) /\
  pix_within 9999 (parallel_pixel (fo_k a) (to_camera (fo_q a) (vreal (fo_c a)) (vreal X))).

(** A camera of either kind: the ray which the program reports for the pixel which it
    reports for [X], and the line on which the exact camera has [X]. *)
Definition own_ray {O : Ops (binary_float 53 1024)} (X : V3 (binary_float 53 1024)) (a : fcam 53 1024 + focam 53 1024) :
    option (Ray WorldFrame (binary_float 53 1024)) :=
  match a with
  | inl a => let cam := camera_new (perspective_from (fc_k a)) (from_rotation_and_camcenter (fc_qh a) (fc_c a)) in
      p <- world_to_pixel cam (mkPoints (X :: nil)) ;; rb <- pixel_to_world cam p ;; @to_single_ray _ _ _ SharedOrigin_Bundle rb
  | inr a => let cam := camera_new (orthographic_from (fo_k a)) (from_rotation_and_camcenter (fo_qh a) (fo_c a)) in
      p <- world_to_pixel cam (mkPoints (X :: nil)) ;; rb <- pixel_to_world cam p ;; @to_single_ray _ _ _ SharedDirection_Bundle rb
  end.
Definition true_line (X : V3 R) (a : fcam 53 1024 + focam 53 1024) : Ray WorldFrame R :=
  match a with
  | inl a => mkRay (vreal (fc_c a)) (vsub X (vreal (fc_c a)))
  | inr a => mkRay X (mv (mtr (rotm (fo_q a))) (mkV3 0 0 1))
  end.
Definition good_any (X : V3 (binary_float 53 1024)) (a : fcam 53 1024 + focam 53 1024) : Prop :=
  match a with inl a => good_cam X a | inr a => good_ortho X a end.
