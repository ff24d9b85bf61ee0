(** * Orthographic.v - model of /repo/src/intrinsics_orthographic.rs *)

From Coq Require Import List.
From Verif Require Import Scalar Linalg Bundles.
Import ListNotations.

(** intrinsics_orthographic.rs 45-54, [struct OrthographicParams] *)
Record OrthographicParams (T : Type) := mkOP { op_sx : T; op_sy : T; op_cx : T; op_cy : T }.
Arguments mkOP {T}. Arguments op_sx {T}. Arguments op_sy {T}. Arguments op_cx {T}. Arguments op_cy {T}.

(** intrinsics_orthographic.rs 69-71, [struct IntrinsicParametersOrthographic] *)
Record IntrinsicParametersOrthographic (T : Type) := mkIPO { io_params : OrthographicParams T }.
Arguments mkIPO {T}. Arguments io_params {T}.

Section Model.
Context {T : Type} {O : Ops T}.
Local Open Scope S_scope.

(** intrinsics_orthographic.rs 56-61 *)
Definition orthographic_from (params : OrthographicParams T) : IntrinsicParametersOrthographic T :=
  mkIPO params.

(** intrinsics_orthographic.rs 79-115 *)
Definition ortho_pixel_to_camera (self : IntrinsicParametersOrthographic T) (pixels : Pixels T)
  : option (RayBundle CameraFrame (SharedDirectionRayBundle T) T) :=
  let result := new_shared_plusz_direction (Coords := CameraFrame)
    (zeros3 (length (pix_data pixels))) in
  let params := io_params self in
  d <- for_range 0 (length (pix_data pixels)) (fun i origin =>
    u <- mat2_get (pix_data pixels) i 0 ;;
    v <- mat2_get (pix_data pixels) i 1 ;;
    let x := (u - op_cx params) / op_sx params in
    let y := (v - op_cy params) / op_sy params in
    origin <- mat3_set origin i 0 x ;;
    origin <- mat3_set origin i 1 y ;;
    mat3_set origin i 2 o_zero)
    (rb_data result) ;;
  Some (mkRayBundle d (rb_type result)).

(** intrinsics_orthographic.rs 117-142 *)
Definition ortho_camera_to_pixel (self : IntrinsicParametersOrthographic T)
    (camera : Points CameraFrame T) : option (Pixels T) :=
  let params := io_params self in
  d <- for_range 0 (length (pts_data camera)) (fun i result =>
    a <- mat3_get (pts_data camera) i 0 ;;
    result <- mat2_set result i 0 (a * op_sx params + op_cx params) ;;
    b <- mat3_get (pts_data camera) i 1 ;;
    mat2_set result i 1 (b * op_sy params + op_cy params))
    (zeros2 (length (pts_data camera))) ;;
  Some (mkPixels d).

(** intrinsics_orthographic.rs 73-143 *)
#[global] Instance Orthographic_Intrinsics
  : IntrinsicParameters T (IntrinsicParametersOrthographic T) := {|
  BundleType := SharedDirectionRayBundle T;
  pixel_to_camera := ortho_pixel_to_camera;
  camera_to_pixel := ortho_camera_to_pixel
|}.
#[global] Instance Orthographic_Bundle
  : Bundle T (BundleType (I := IntrinsicParametersOrthographic T)) := SharedDirection_Bundle.

End Model.
