(** * Extrinsics.v - model of /repo/src/extrinsics.rs *)

From Coq Require Import List.
From Verif Require Import Scalar Linalg Bundles.
Import ListNotations.

(** extrinsics.rs 38-47, [struct ExtrinsicsCache] *)
Record ExtrinsicsCache (T : Type) := mkCache {
  c_q : M33 T;
  c_translation : V3 T;
  c_qt : M34 T;
  c_q_inv : M33 T;
  c_camcenter_z0 : V3 T;
  c_pose : Iso T;
  c_pose_inv : Iso T }.
Arguments mkCache {T}. Arguments c_q {T}. Arguments c_translation {T}. Arguments c_qt {T}.
Arguments c_q_inv {T}. Arguments c_camcenter_z0 {T}. Arguments c_pose {T}. Arguments c_pose_inv {T}.

(** extrinsics.rs 18-25, [struct ExtrinsicParameters] *)
Record ExtrinsicParameters (T : Type) := mkExtrinsics {
  e_rquat : Quat T;
  e_camcenter : V3 T;
  e_cache : ExtrinsicsCache T }.
Arguments mkExtrinsics {T}. Arguments e_rquat {T}. Arguments e_camcenter {T}. Arguments e_cache {T}.

Section Model.
Context {T : Type} {O : Ops T}.
Local Open Scope S_scope.

(** extrinsics.rs 58-98 *)
Definition from_rotation_and_camcenter (rotation : Quat T) (camcenter : V3 T)
  : ExtrinsicParameters T :=
  let q := q_to_rotation_matrix rotation in
  let translation := v3_neg (m33_mulv q camcenter) in
  let qt := mkM34 (m00 q) (m01 q) (m02 q) (vx translation)
                  (m10 q) (m11 q) (m12 q) (vy translation)
                  (m20 q) (m21 q) (m22 q) (vz translation) in
  let q_inv := m33_transpose q in
  let camcenter_z0 := mkV3 (vx camcenter) (vy camcenter) o_zero in
  let pose := mkIso rotation translation in
  let pose_inv := iso_inverse pose in
  mkExtrinsics rotation camcenter
    (mkCache q translation qt q_inv camcenter_z0 pose pose_inv).

(** extrinsics.rs 101-108 *)
Definition from_pose (pose : Iso T) : ExtrinsicParameters T :=
  let rquat := iso_rot pose in
  let translation := iso_trans pose in
  let q := q_to_rotation_matrix (q_inverse rquat) in
  let camcenter := v3_neg (m33_mulv q translation) in
  from_rotation_and_camcenter rquat camcenter.

(** extrinsics.rs 111-126, with the roll angle as a parameter *)
Definition from_view_with_roll (pi : T) (camcenter lookat up : V3 T) : ExtrinsicParameters T :=
  let dir := v3_sub lookat camcenter in
  let dir_unit := v3_normalize dir in
  let q := q_look_at_lh dir_unit up in
  let q2 := q_from_axis_angle dir_unit pi in
  let q3 := q_mul q q2 in
  from_rotation_and_camcenter q3 camcenter.

(** extrinsics.rs 111-126; line 115 converts the f64 constant PI.  [up] is a
    [Unit<Vector3>] in the code. *)
Definition from_view (camcenter lookat up : V3 T) : ExtrinsicParameters T :=
  from_view_with_roll o_pi64 camcenter lookat up.

(** extrinsics.rs 130-132 *)
Definition camcenter (e : ExtrinsicParameters T) : V3 T := e_camcenter e.
(** extrinsics.rs 136-138 *)
Definition pose (e : ExtrinsicParameters T) : Iso T := c_pose (e_cache e).
(** extrinsics.rs 142-144 *)
Definition matrix (e : ExtrinsicParameters T) : M34 T := c_qt (e_cache e).
(** extrinsics.rs 151-153 *)
Definition rotation (e : ExtrinsicParameters T) : M33 T := c_q (e_cache e).
(** extrinsics.rs 157-159 *)
Definition translation (e : ExtrinsicParameters T) : V3 T := c_translation (e_cache e).

(** extrinsics.rs 182-186 *)
Definition lookdir (e : ExtrinsicParameters T) (pt_cam : V3 T) : V3 T :=
  let cc := camcenter e in
  let pt := v3_sub (iso_transform_point (c_pose_inv (e_cache e)) pt_cam) cc in
  v3_normalize pt.
(** extrinsics.rs 162-165 *)
Definition forward (e : ExtrinsicParameters T) : V3 T :=
  lookdir e (mkV3 o_zero o_zero o_one).
(** extrinsics.rs 168-171 *)
Definition up (e : ExtrinsicParameters T) : V3 T :=
  lookdir e (mkV3 o_zero (- o_one) o_zero).
(** extrinsics.rs 174-177 *)
Definition right (e : ExtrinsicParameters T) : V3 T :=
  lookdir e (mkV3 o_one o_zero o_zero).

(** The loop shared by [camera_to_world] and [world_to_camera]:
    extrinsics.rs 198-217 and 245-264. *)
Definition transform_rows (p : Iso T) (in_mult : list (V3 T)) : option (list (V3 T)) :=
  for_range 0 (length in_mult) (fun i out_mult =>
    pt <- read_row in_mult i ;;
    let tmp := iso_transform_point p pt in
    write_row i tmp out_mult)
    (zeros3 (length in_mult)).

(** extrinsics.rs 189-218 *)
Definition camera_to_world (e : ExtrinsicParameters T) (cam_coords : Points CameraFrame T)
  : option (Points WorldFrame T) :=
  d <- transform_rows (c_pose_inv (e_cache e)) (pts_data cam_coords) ;; Some (mkPoints d).

(** extrinsics.rs 236-265 *)
Definition world_to_camera (e : ExtrinsicParameters T) (world : Points WorldFrame T)
  : option (Points CameraFrame T) :=
  d <- transform_rows (c_pose (e_cache e)) (pts_data world) ;; Some (mkPoints d).

(** extrinsics.rs 222-233 *)
Definition ray_camera_to_world {B} {HB : Bundle T B} (e : ExtrinsicParameters T)
    (camera : RayBundle CameraFrame B T) : option (RayBundle WorldFrame B T) :=
  to_pose WorldFrame camera (c_pose_inv (e_cache e)).

End Model.
