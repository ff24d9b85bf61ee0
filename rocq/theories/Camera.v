(** * Camera.v - model of /repo/src/camera.rs *)

From Coq Require Import List.
From Verif Require Import Scalar Linalg Householder Bundles Extrinsics Perspective.
Import ListNotations.

(** camera.rs 72-79, [struct Camera] *)
Record Camera (T I : Type) := mkCamera {
  cam_intrinsics : I;
  cam_extrinsics : ExtrinsicParameters T }.
Arguments mkCamera {T I}. Arguments cam_intrinsics {T I}. Arguments cam_extrinsics {T I}.

Section Model.
Context {T : Type} {O : Ops T}.
Local Open Scope S_scope.

(** camera.rs 91-96 *)
Definition camera_new {I} {HI : IntrinsicParameters T I} (intrinsics : I)
    (extrinsics : ExtrinsicParameters T) : Camera T I :=
  mkCamera intrinsics extrinsics.

(** camera.rs 111-123 *)
Definition world_to_pixel {I} {HI : IntrinsicParameters T I} (self : Camera T I)
    (world : Points WorldFrame T) : option (Pixels T) :=
  camera_frame <- world_to_camera (cam_extrinsics self) world ;;
  camera_to_pixel (cam_intrinsics self) camera_frame.

(** camera.rs 133-151 *)
Definition pixel_to_world {I} {HI : IntrinsicParameters T I} {HB : Bundle T BundleType}
    (self : Camera T I) (pixels : Pixels T)
  : option (RayBundle WorldFrame BundleType T) :=
  camera <- pixel_to_camera (cam_intrinsics self) pixels ;;
  ray_camera_to_world (cam_extrinsics self) camera.

(** camera.rs 225-245; the result is [(R, Q)] *)
Definition rq (A : M33 T) : M33 T * M33 T :=
  let zero := o_zero in
  let one := o_one in
  let P := mkM33 zero zero one
                 zero one zero
                 one zero zero in
  let Atilde := m33_mul P A in
  let qrm := qr_new (cols_of_m33 (m33_transpose Atilde)) in
  let Qtilde := qr_q qrm in
  let Rtilde := qr_r qrm in
  let Q := m33_mul P (m33_transpose Qtilde) in
  let R := m33_mul (m33_mul P (m33_transpose Rtilde)) P in
  (R, Q).

(** camera.rs 254-263, the sign flipping loop *)
Definition flip_signs (intrin q : M33 T) : option (M33 T * M33 T) :=
  for_range 0 3 (fun i st =>
    d <- m33_get (fst st) i i ;;
    if d <? o_zero then
      for_range 0 3 (fun j st =>
        a <- m33_get (fst st) j i ;;
        intrin' <- m33_set (fst st) j i (- a) ;;
        b <- m33_get (snd st) i j ;;
        q' <- m33_set (snd st) i j (- b) ;;
        Some (intrin', q')) st
    else Some st) (intrin, q).

(** camera.rs 248-284 ([r1.determinant() > r2.determinant()]) *)
Definition rq_decomposition (orig : M33 T) : option (result (Quat T * M33 T)) :=
  let (intrin, q) := rq orig in
  st <- flip_signs intrin q ;;
  let (intrin, q) := (st : M33 T * M33 T) in
  let r1 := q in
  let r2 := m33_neg q in
  if m33_det r2 <? m33_det r1 then
    Some (Ok (q_from_rotation_matrix r1, intrin))
  else
    Some (Ok (q_from_rotation_matrix r2, m33_neg intrin)).

(** camera.rs 288-298 *)
Definition pmat2cam_center (p : M34 T) : V3 T :=
  let x := m33_det (m34_remove_col0 p) in
  let y := - m33_det (m34_remove_col1 p) in
  let z := m33_det (m34_remove_col2 p) in
  let w := - m33_det (m34_remove_col3 p) in
  mkV3 (x / w) (y / w) (z / w).

(** camera.rs 156-181 *)
Definition from_perspective_matrix (pmat : M34 T)
  : option (result (Camera T (IntrinsicParametersPerspective T))) :=
  let m := m34_remove_col3 pmat in
  rk <- rq_decomposition m ;;
  match rk with
  | Err e => Some (Err e)
  | Ok (rquat, k) =>
    let k22 := m22 k in
    let one := o_one in
    let k := m33_scale k (one / k22) in
    let params := mkPP (m00 k) (m11 k) (m01 k) (m02 k) (m12 k) in
    let camcenter := pmat2cam_center pmat in
    let extrinsics := from_rotation_and_camcenter rquat camcenter in
    Some (Ok (camera_new (perspective_from params) extrinsics))
  end.

(** camera.rs 184-198 *)
Definition as_camera_matrix (self : Camera T (IntrinsicParametersPerspective T)) : M34 T :=
  let p33 := as_intrinsics_matrix (cam_intrinsics self) in
  let m := m33_mul34 p33 (c_qt (e_cache (cam_extrinsics self))) in
  let m := if p00 m <? o_zero then m34_neg m else m in
  m34_div m (p23 m).

End Model.
