(** * Equality.v - [==] of the crate's types, and the text of errors

    The derived [PartialEq] implementations compare field by field.  The matrices of
    nalgebra are equal if their shapes and all their entries are; points, rotations,
    translations and isometries are compared likewise.  Two [UnitQuaternion]s are equal
    if their coordinates are, or are opposite (nalgebra counts [q] and [-q] as the same
    rotation). *)

From Coq Require Import List Bool String.
From Verif Require Import Scalar Linalg Bundles Extrinsics Perspective Orthographic Camera.
Import ListNotations.

Section Model.
Context {T : Type} {O : Ops T}.
Local Open Scope bool_scope.

(** nalgebra *)
Definition v3_eqb (a b : V3 T) : bool := o_eqb (vx a) (vx b) && o_eqb (vy a) (vy b) && o_eqb (vz a) (vz b).
Definition v2_eqb (a b : V2 T) : bool := o_eqb (px a) (px b) && o_eqb (py a) (py b).
Definition m33_eqb (a b : M33 T) : bool :=
  o_eqb (m00 a) (m00 b) && o_eqb (m01 a) (m01 b) && o_eqb (m02 a) (m02 b) &&
  o_eqb (m10 a) (m10 b) && o_eqb (m11 a) (m11 b) && o_eqb (m12 a) (m12 b) &&
  o_eqb (m20 a) (m20 b) && o_eqb (m21 a) (m21 b) && o_eqb (m22 a) (m22 b).
Definition m34_eqb (a b : M34 T) : bool :=
  o_eqb (p00 a) (p00 b) && o_eqb (p01 a) (p01 b) && o_eqb (p02 a) (p02 b) && o_eqb (p03 a) (p03 b) &&
  o_eqb (p10 a) (p10 b) && o_eqb (p11 a) (p11 b) && o_eqb (p12 a) (p12 b) && o_eqb (p13 a) (p13 b) &&
  o_eqb (p20 a) (p20 b) && o_eqb (p21 a) (p21 b) && o_eqb (p22 a) (p22 b) && o_eqb (p23 a) (p23 b).
Definition coords_eqb (a b : Quat T) : bool :=
  o_eqb (qi a) (qi b) && o_eqb (qj a) (qj b) && o_eqb (qk a) (qk b) && o_eqb (qw a) (qw b).
Definition quat_eqb (a b : Quat T) : bool := coords_eqb a b || coords_eqb a (q_neg b).
Definition iso_eqb (a b : Iso T) : bool := v3_eqb (iso_trans a) (iso_trans b) && quat_eqb (iso_rot a) (iso_rot b).
(** N x 3 matrices *)
Fixpoint rows_eqb (a b : list (V3 T)) : bool :=
  match a, b with
  | [], [] => true
  | x :: a', y :: b' => v3_eqb x y && rows_eqb a' b'
  | _, _ => false
  end.

(** extrinsics.rs 38, 18 *)
Definition cache_eqb (a b : ExtrinsicsCache T) : bool :=
  m33_eqb (c_q a) (c_q b) && v3_eqb (c_translation a) (c_translation b) && m34_eqb (c_qt a) (c_qt b) &&
  m33_eqb (c_q_inv a) (c_q_inv b) && v3_eqb (c_camcenter_z0 a) (c_camcenter_z0 b) &&
  iso_eqb (c_pose a) (c_pose b) && iso_eqb (c_pose_inv a) (c_pose_inv b).
Definition extrinsics_eqb (a b : ExtrinsicParameters T) : bool :=
  quat_eqb (e_rquat a) (e_rquat b) && v3_eqb (e_camcenter a) (e_camcenter b) && cache_eqb (e_cache a) (e_cache b).

(** intrinsics_perspective.rs 50, 82 *)
Definition persp_params_eqb (a b : PerspectiveParams T) : bool :=
  o_eqb (pp_fx a) (pp_fx b) && o_eqb (pp_fy a) (pp_fy b) && o_eqb (pp_skew a) (pp_skew b) &&
  o_eqb (pp_cx a) (pp_cx b) && o_eqb (pp_cy a) (pp_cy b).
Definition perspective_eqb (a b : IntrinsicParametersPerspective T) : bool :=
  persp_params_eqb (ip_params a) (ip_params b) && m34_eqb (ip_cache_p a) (ip_cache_p b).
(** intrinsics_orthographic.rs 43, 67 *)
Definition ortho_params_eqb (a b : OrthographicParams T) : bool :=
  o_eqb (op_sx a) (op_sx b) && o_eqb (op_sy a) (op_sy b) && o_eqb (op_cx a) (op_cx b) && o_eqb (op_cy a) (op_cy b).
Definition orthographic_eqb (a b : IntrinsicParametersOrthographic T) : bool :=
  ortho_params_eqb (io_params a) (io_params b).
(** camera.rs 70, for intrinsics whose comparison is [eqI] *)
Definition camera_eqb {I} (eqI : I -> I -> bool) (a b : Camera T I) : bool :=
  eqI (cam_intrinsics a) (cam_intrinsics b) && extrinsics_eqb (cam_extrinsics a) (cam_extrinsics b).
(** ray_bundle_types.rs 9, 182 *)
Definition shared_origin_eqb (a b : SharedOriginRayBundle T) : bool := v3_eqb (so_center a) (so_center b).
Definition shared_direction_eqb (a b : SharedDirectionRayBundle T) : bool := v3_eqb (sd_direction a) (sd_direction b).
(** lib.rs 260; the marker for the coordinate system has one value *)
Definition bundle_eqb {C B} (eqB : B -> B -> bool) (a b : RayBundle C B T) : bool :=
  rows_eqb (rb_data a) (rb_data b) && eqB (rb_type a) (rb_type b).
End Model.

(** lib.rs 146-168: [Display] of an error is its [Debug] output, the name of the variant *)
Definition error_display (e : Error) : string :=
  match e with
  | InvalidInput => "InvalidInput"
  | SvdFailed => "SvdFailed"
  | MinimumTwoRaysNeeded => "MinimumTwoRaysNeeded"
  | InvalidRotationMatrix => "InvalidRotationMatrix"
  end.
