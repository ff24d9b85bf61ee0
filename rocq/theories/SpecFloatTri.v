(** * SpecFloatTri.v - words of the statements about triangulation in IEEE arithmetic *)

From Coq Require Import ZArith Reals List.
From Flocq Require Import Core BinarySingleNaN.
From Verif Require Import Scalar Linalg Bundles Extrinsics Perspective Orthographic Camera RealBase Spec SpecGeom SpecFloatErr.
Import ListNotations.
Local Open Scope R_scope.

Section S.
Context {prec emax : Z} {O : Ops (binary_float prec emax)}.
Local Notation F := (binary_float prec emax).

(** The world ray which the program reports for one pixel. *)
Definition persp_ray (k : PerspectiveParams F) (qh : Quat F) (c : V3 F) (p : V2 F) : option (Ray WorldFrame F) :=
  rb <- pixel_to_world (camera_new (perspective_from k) (from_rotation_and_camcenter qh c)) (mkPixels [p]) ;;
  @to_single_ray F _ _ SharedOrigin_Bundle rb.
Definition ortho_ray (k : OrthographicParams F) (qh : Quat F) (c : V3 F) (p : V2 F) : option (Ray WorldFrame F) :=
  rb <- pixel_to_world (camera_new (orthographic_from k) (from_rotation_and_camcenter qh c)) (mkPixels [p]) ;;
  @to_single_ray F _ _ SharedDirection_Bundle rb.

(** The camera: center of size at most [M], parameters and pixel of size at most [P],
    quaternion within [8 w] of a unit quaternion [q], focal lengths or scales at least
    [f]; it reports [X], of depth at most [Z], at a pixel off by at most [eps].
    [r] is the ray of this pixel, [t] the line on which the exact camera has [X]. *)
Definition seen_persp (w M P f Z eps : R) (X : V3 R) (r : Ray WorldFrame F) (t : Ray WorldFrame R) : Prop :=
  exists k qh q c p, unit_quat q /\ quat_near (8 * w) qh q /\ vec_sized M c /\
    persp_sized P k /\ sized 0 (Rabs (B2R (pp_fy k))) (pp_skew k) /\
    f <= Rabs (B2R (pp_fx k)) /\ f <= Rabs (B2R (pp_fy k)) /\ sized 0 P (px p) /\ sized 0 P (py p) /\
    0 < Rabs (depth q (vreal c) X) <= Z /\ pix_near eps p (pinhole k (to_camera q (vreal c) X)) /\
    persp_ray k qh c p = Some r /\ t = mkRay (vreal c) (vsub X (vreal c)).
Definition seen_ortho (w M P f Z eps : R) (X : V3 R) (r : Ray WorldFrame F) (t : Ray WorldFrame R) : Prop :=
  exists k qh q c p, unit_quat q /\ quat_near (8 * w) qh q /\ vec_sized M c /\
    ortho_sized P k /\
    f <= Rabs (B2R (op_sx k)) /\ f <= Rabs (B2R (op_sy k)) /\ sized 0 P (px p) /\ sized 0 P (py p) /\
    Rabs (depth q (vreal c) X) <= Z /\ pix_near eps p (parallel_pixel k (to_camera q (vreal c) X)) /\
    ortho_ray k qh c p = Some r /\ t = mkRay X (mv (mtr (rotm q)) (mkV3 0 0 1)).
End S.

(** A perspective camera as given to the program, and the unit quaternion [fc_q] meant by [fc_qh]. *)
Record fcam (prec emax : Z) := mkFcam {
  fc_k : PerspectiveParams (binary_float prec emax); fc_qh : Quat (binary_float prec emax); fc_q : Quat R; fc_c : V3 (binary_float prec emax) }.
Arguments fc_k {prec emax}. Arguments fc_qh {prec emax}. Arguments fc_q {prec emax}. Arguments fc_c {prec emax}.
(** In double precision: centers up to 100, focal lengths from 500 to 10000, skew up to
    500, the point at least 1 in front and its pixel within the square of size 9999. *)
Definition good_cam (X : V3 (binary_float 53 1024)) (a : fcam 53 1024) : Prop :=
  unit_quat (fc_q a) /\ quat_near (8 * bpow radix2 (- (53))) (fc_qh a) (fc_q a) /\ vec_sized 100 (fc_c a) /\
  sized 500 10000 (pp_fx (fc_k a)) /\ sized 500 10000 (pp_fy (fc_k a)) /\ sized 0 500 (pp_skew (fc_k a)) /\
  sized 0 10000 (pp_cx (fc_k a)) /\ sized 0 10000 (pp_cy (fc_k a)) /\
  1 <= depth (fc_q a) (vreal (fc_c a)) (vreal X) /\
  pix_within 9999 (pinhole (fc_k a) (to_camera (fc_q a) (vreal (fc_c a)) (vreal X))).
