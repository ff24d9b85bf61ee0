(** * Perspective.v - model of /repo/src/intrinsics_perspective.rs *)

From Coq Require Import List.
From Verif Require Import Scalar Linalg Bundles.
Import ListNotations.

(** intrinsics_perspective.rs 52-63, [struct PerspectiveParams] *)
Record PerspectiveParams (T : Type) := mkPP {
  pp_fx : T; pp_fy : T; pp_skew : T; pp_cx : T; pp_cy : T }.
Arguments mkPP {T}. Arguments pp_fx {T}. Arguments pp_fy {T}. Arguments pp_skew {T}.
Arguments pp_cx {T}. Arguments pp_cy {T}.

(** intrinsics_perspective.rs 84-88, [struct IntrinsicParametersPerspective] *)
Record IntrinsicParametersPerspective (T : Type) := mkIPP {
  ip_params : PerspectiveParams T;
  ip_cache_p : M34 T }.
Arguments mkIPP {T}. Arguments ip_params {T}. Arguments ip_cache_p {T}.

Section Model.
Context {T : Type} {O : Ops T}.
Local Open Scope S_scope.

(** intrinsics_perspective.rs 65-76, [impl From<PerspectiveParams>] *)
Definition perspective_from (params : PerspectiveParams T) : IntrinsicParametersPerspective T :=
  let cache_p := mkM34
    (pp_fx params) (pp_skew params) (pp_cx params) o_zero
    o_zero (pp_fy params) (pp_cy params) o_zero
    o_zero o_zero o_one o_zero in
  mkIPP params cache_p.

(** intrinsics_perspective.rs 95-132 *)
Definition from_normalized_3x4_matrix (p : M34 T)
  : result (IntrinsicParametersPerspective T) :=
  let params := mkPP (p00 p) (p11 p) (p01 p) (p02 p) (p12 p) in
  if relative_ne (p03 p) o_zero then Err InvalidInput
  else if relative_ne (p10 p) o_zero then Err InvalidInput
  else if relative_ne (p13 p) o_zero then Err InvalidInput
  else if relative_ne (p20 p) o_zero then Err InvalidInput
  else if relative_ne (p21 p) o_zero then Err InvalidInput
  else if relative_ne (p22 p) o_one then Err InvalidInput
  else if relative_ne (p23 p) o_zero then Err InvalidInput
  else Ok (perspective_from params).

(** intrinsics_perspective.rs 136-168, accessors *)
Definition ipp_fx (k : IntrinsicParametersPerspective T) : T := pp_fx (ip_params k).
Definition ipp_fy (k : IntrinsicParametersPerspective T) : T := pp_fy (ip_params k).
Definition ipp_skew (k : IntrinsicParametersPerspective T) : T := pp_skew (ip_params k).
Definition ipp_cx (k : IntrinsicParametersPerspective T) : T := pp_cx (ip_params k).
Definition ipp_cy (k : IntrinsicParametersPerspective T) : T := pp_cy (ip_params k).

(** intrinsics_perspective.rs 172-180 *)
Definition as_intrinsics_matrix (k : IntrinsicParametersPerspective T) : M33 T :=
  m34_view33 (ip_cache_p k).

(** intrinsics_perspective.rs 189-225 *)
Definition persp_pixel_to_camera (self : IntrinsicParametersPerspective T) (pixels : Pixels T)
  : option (RayBundle CameraFrame (SharedOriginRayBundle T) T) :=
  let result := new_shared_zero_origin (Coords := CameraFrame)
    (zeros3 (length (pix_data pixels))) in
  let params := ip_params self in
  d <- for_range 0 (length (pix_data pixels)) (fun i cam_dir =>
    u <- mat2_get (pix_data pixels) i 0 ;;
    v <- mat2_get (pix_data pixels) i 1 ;;
    let y := (v - pp_cy params) / pp_fy params in
    cam_dir <- mat3_set cam_dir i 0 ((u - pp_skew params * y - pp_cx params) / pp_fx params) ;;
    cam_dir <- mat3_set cam_dir i 1 y ;;
    mat3_set cam_dir i 2 o_one)
    (rb_data result) ;;
  Some (mkRayBundle d (rb_type result)).

(** intrinsics_perspective.rs 227-257 *)
Definition persp_camera_to_pixel (self : IntrinsicParametersPerspective T)
    (camera : Points CameraFrame T) : option (Pixels T) :=
  d <- for_range 0 (length (pts_data camera)) (fun i result =>
    pt <- read_row (pts_data camera) i ;;
    let x := v3_to_homogeneous pt in
    let rst := m34_mulv (ip_cache_p self) x in
    result <- mat2_set result i 0 (vx rst / vz rst) ;;
    mat2_set result i 1 (vy rst / vz rst))
    (zeros2 (length (pts_data camera))) ;;
  Some (mkPixels d).

(** intrinsics_perspective.rs 183-258 *)
#[global] Instance Perspective_Intrinsics
  : IntrinsicParameters T (IntrinsicParametersPerspective T) := {|
  BundleType := SharedOriginRayBundle T;
  pixel_to_camera := persp_pixel_to_camera;
  camera_to_pixel := persp_camera_to_pixel
|}.
#[global] Instance Perspective_Bundle
  : Bundle T (BundleType (I := IntrinsicParametersPerspective T)) := SharedOrigin_Bundle.

End Model.
