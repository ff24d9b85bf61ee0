(** * Bundles.v - model of /repo/src/lib.rs and /repo/src/ray_bundle_types.rs *)

From Coq Require Import List.
From Verif Require Import Scalar Linalg.
Import ListNotations.

(** /repo/src/lib.rs 145-157, [enum Error]. *)
Inductive Error := InvalidInput | SvdFailed | MinimumTwoRaysNeeded | InvalidRotationMatrix.

(** Rust's [Result<A, Error>]. *)
Inductive result (A : Type) := Ok (a : A) | Err (e : Error).
Arguments Ok {A}. Arguments Err {A}.

(** /repo/src/lib.rs 203-215: the two coordinate systems are only used as
    phantom types. *)
Inductive CameraFrame : Set := mkCameraFrame.
Inductive WorldFrame : Set := mkWorldFrame.

(** /repo/src/lib.rs 177-188, [struct Pixels]: an [NPTS x 2] matrix. *)
Record Pixels (T : Type) := mkPixels { pix_data : list (V2 T) }.
Arguments mkPixels {T}. Arguments pix_data {T}.

(** /repo/src/lib.rs 222-254, [struct Points]: an [NPTS x 3] matrix in a frame. *)
Record Points (Coords T : Type) := mkPoints { pts_data : list (V3 T) }.
Arguments mkPoints {Coords T}. Arguments pts_data {Coords T}.

(** /repo/src/lib.rs 262-274 and 364-375, [struct RayBundle]. *)
Record RayBundle (Coords B T : Type) := mkRayBundle { rb_data : list (V3 T); rb_type : B }.
Arguments mkRayBundle {Coords B T}. Arguments rb_data {Coords B T}. Arguments rb_type {Coords B T}.

(** /repo/src/lib.rs 421-439, [struct Ray]. *)
Record Ray (Coords T : Type) := mkRay { ray_center : V3 T; ray_direction : V3 T }.
Arguments mkRay {Coords T}. Arguments ray_center {Coords T}. Arguments ray_direction {Coords T}.

(** /repo/src/lib.rs 442-520, [trait Bundle]. *)
Class Bundle (T B : Type) := {
  b_to_single_ray : forall Coords, B -> V3 T -> Ray Coords T;
  b_directions : B -> list (V3 T) -> option (list (V3 T));
  b_centers : B -> list (V3 T) -> option (list (V3 T));
  b_point_on_ray : forall OutFrame, B -> list (V3 T) -> option (Points OutFrame T);
  b_point_on_ray_at_distance :
    forall OutFrame, B -> list (V3 T) -> T -> option (Points OutFrame T);
  b_to_pose : forall OutFrame, B -> Iso T -> list (V3 T) -> option (RayBundle OutFrame B T)
}.

(** /repo/src/lib.rs 523-552, [trait IntrinsicParameters]. *)
Class IntrinsicParameters (T I : Type) := {
  BundleType : Type;
  pixel_to_camera : I -> Pixels T -> option (RayBundle CameraFrame BundleType T);
  camera_to_pixel : I -> Points CameraFrame T -> option (Pixels T)
}.

(** /repo/src/ray_bundle_types.rs 11-13 and 184-186. *)
Record SharedOriginRayBundle (T : Type) := mkSO { so_center : V3 T }.
Arguments mkSO {T}. Arguments so_center {T}.
Record SharedDirectionRayBundle (T : Type) := mkSD { sd_direction : V3 T }.
Arguments mkSD {T}. Arguments sd_direction {T}.

Section Model.
Context {T : Type} {O : Ops T}.
Local Open Scope S_scope.

(** [for j in 0..3 { out[(i, j)] = v[j] }], the inner loop used throughout. *)
Definition write_row (i : nat) (v : V3 T) (out : list (V3 T)) : option (list (V3 T)) :=
  for_range 0 3 (fun j out => t <- v3_get v j ;; mat3_set out i j t) out.

(** [Point3::new(m[(i,0)], m[(i,1)], m[(i,2)])]. *)
Definition read_row (m : list (V3 T)) (i : nat) : option (V3 T) :=
  x <- mat3_get m i 0 ;; y <- mat3_get m i 1 ;; z <- mat3_get m i 2 ;;
  Some (mkV3 x y z).

(** ** Shared origin *)

(** ray_bundle_types.rs 21-27 *)
Definition so_new_shared_zero_origin : SharedOriginRayBundle T :=
  mkSO (mkV3 o_zero o_zero o_zero).

(** ray_bundle_types.rs 35-44 *)
Definition so_to_single_ray Coords (b : SharedOriginRayBundle T) (self_data : V3 T)
  : Ray Coords T :=
  mkRay (so_center b) self_data.

(** ray_bundle_types.rs 46-63 *)
Definition so_directions (b : SharedOriginRayBundle T) (self_data : list (V3 T))
  : option (list (V3 T)) :=
  for_range 0 (length self_data) (fun i result =>
    for_range 0 3 (fun j result =>
      t <- mat3_get self_data i j ;; mat3_set result i j t) result)
    (zeros3 (length self_data)).

(** ray_bundle_types.rs 65-82 *)
Definition so_centers (b : SharedOriginRayBundle T) (self_data : list (V3 T))
  : option (list (V3 T)) :=
  for_range 0 (length self_data) (fun i result =>
    write_row i (so_center b) result)
    (zeros3 (length self_data)).

(** ray_bundle_types.rs 84-110 *)
Definition so_point_on_ray OutFrame (b : SharedOriginRayBundle T) (directions : list (V3 T))
  : option (Points OutFrame T) :=
  d <- for_range 0 (length directions) (fun i result =>
    for_range 0 3 (fun j result =>
      c <- v3_get (so_center b) j ;; d <- mat3_get directions i j ;;
      mat3_set result i j (c + d)) result)
    (zeros3 (length directions)) ;;
  Some (mkPoints d).

(** ray_bundle_types.rs 112-146 *)
Definition so_point_on_ray_at_distance OutFrame (b : SharedOriginRayBundle T)
    (directions : list (V3 T)) (distance : T) : option (Points OutFrame T) :=
  d <- for_range 0 (length directions) (fun i result =>
    dx <- mat3_get directions i 0 ;;
    dy <- mat3_get directions i 1 ;;
    dz <- mat3_get directions i 2 ;;
    let mag2 := dx * dx + dy * dy + dz * dz in
    let mag := o_sqrt mag2 in
    let scale := distance / mag in
    for_range 0 3 (fun j result =>
      c <- v3_get (so_center b) j ;; d <- mat3_get directions i j ;;
      mat3_set result i j (c + scale * d)) result)
    (zeros3 (length directions)) ;;
  Some (mkPoints d).

(** ray_bundle_types.rs 148-178 ([self_data.row(i).transpose()] is row [i]) *)
Definition so_to_pose OutFrame (b : SharedOriginRayBundle T) (pose : Iso T)
    (self_data : list (V3 T)) : option (RayBundle OutFrame (SharedOriginRayBundle T) T) :=
  let new_center := iso_transform_point pose (so_center b) in
  d <- for_range 0 (length self_data) (fun i reposed =>
    orig_vec <- nth_error self_data i ;;
    let new_vec := iso_transform_vector pose orig_vec in
    write_row i new_vec reposed)
    (zeros3 (length self_data)) ;;
  Some (mkRayBundle d (mkSO new_center)).

#[global] Instance SharedOrigin_Bundle : Bundle T (SharedOriginRayBundle T) := {|
  b_to_single_ray := so_to_single_ray;
  b_directions := so_directions;
  b_centers := so_centers;
  b_point_on_ray := so_point_on_ray;
  b_point_on_ray_at_distance := so_point_on_ray_at_distance;
  b_to_pose := so_to_pose
|}.

(** ** Shared direction *)

(** ray_bundle_types.rs 190-195 *)
Definition sd_new_plusz_shared_direction : SharedDirectionRayBundle T :=
  mkSD (mkV3 o_zero o_zero o_one).

(** ray_bundle_types.rs 199-208 *)
Definition sd_to_single_ray Coords (b : SharedDirectionRayBundle T) (self_data : V3 T)
  : Ray Coords T :=
  mkRay self_data (sd_direction b).

(** ray_bundle_types.rs 210-227 *)
Definition sd_directions (b : SharedDirectionRayBundle T) (self_data : list (V3 T))
  : option (list (V3 T)) :=
  for_range 0 (length self_data) (fun i result =>
    write_row i (sd_direction b) result)
    (zeros3 (length self_data)).

(** ray_bundle_types.rs 229-246 *)
Definition sd_centers (b : SharedDirectionRayBundle T) (self_data : list (V3 T))
  : option (list (V3 T)) :=
  for_range 0 (length self_data) (fun i result =>
    for_range 0 3 (fun j result =>
      t <- mat3_get self_data i j ;; mat3_set result i j t) result)
    (zeros3 (length self_data)).

(** ray_bundle_types.rs 248-274 *)
Definition sd_point_on_ray OutFrame (b : SharedDirectionRayBundle T) (centers : list (V3 T))
  : option (Points OutFrame T) :=
  d <- for_range 0 (length centers) (fun i result =>
    for_range 0 3 (fun j result =>
      d <- v3_get (sd_direction b) j ;; c <- mat3_get centers i j ;;
      mat3_set result i j (d + c)) result)
    (zeros3 (length centers)) ;;
  Some (mkPoints d).

(** ray_bundle_types.rs 276-308 *)
Definition sd_point_on_ray_at_distance OutFrame (b : SharedDirectionRayBundle T)
    (centers : list (V3 T)) (distance : T) : option (Points OutFrame T) :=
  let dx := vx (sd_direction b) in
  let dy := vy (sd_direction b) in
  let dz := vz (sd_direction b) in
  let mag2 := dx * dx + dy * dy + dz * dz in
  let mag := o_sqrt mag2 in
  let scale := distance / mag in
  let dist_dir := mkV3 (scale * dx) (scale * dy) (scale * dz) in
  d <- for_range 0 (length centers) (fun i result =>
    for_range 0 3 (fun j result =>
      d <- v3_get dist_dir j ;; c <- mat3_get centers i j ;;
      mat3_set result i j (d + c)) result)
    (zeros3 (length centers)) ;;
  Some (mkPoints d).

(** ray_bundle_types.rs 310-346 *)
Definition sd_to_pose OutFrame (b : SharedDirectionRayBundle T) (pose : Iso T)
    (self_data : list (V3 T)) : option (RayBundle OutFrame (SharedDirectionRayBundle T) T) :=
  let new_direction := iso_transform_vector pose (sd_direction b) in
  d <- for_range 0 (length self_data) (fun i reposed =>
    orig_point <- nth_error self_data i ;;
    let new_point := iso_transform_point pose orig_point in
    write_row i new_point reposed)
    (zeros3 (length self_data)) ;;
  Some (mkRayBundle d (mkSD new_direction)).

#[global] Instance SharedDirection_Bundle : Bundle T (SharedDirectionRayBundle T) := {|
  b_to_single_ray := sd_to_single_ray;
  b_directions := sd_directions;
  b_centers := sd_centers;
  b_point_on_ray := sd_point_on_ray;
  b_point_on_ray_at_distance := sd_point_on_ray_at_distance;
  b_to_pose := sd_to_pose
|}.

(** ** Methods of RayBundle (lib.rs 276-415): they forward to the bundle type *)

(** lib.rs 287-289 *)
Definition directions {Coords B} {HB : Bundle T B} (r : RayBundle Coords B T) :=
  b_directions (rb_type r) (rb_data r).
(** lib.rs 293-295 *)
Definition centers {Coords B} {HB : Bundle T B} (r : RayBundle Coords B T) :=
  b_centers (rb_type r) (rb_data r).
(** lib.rs 306-308; only available for bundles with exactly one row ([U1]), any
    other row count is a type error in Rust ([None] here). *)
Definition to_single_ray {Coords B} {HB : Bundle T B} (r : RayBundle Coords B T)
  : option (Ray Coords T) :=
  match rb_data r with
  | [d] => Some (b_to_single_ray Coords (rb_type r) d)
  | _ => None
  end.
(** lib.rs 324-327 *)
Definition new_shared_zero_origin {Coords} (data : list (V3 T))
  : RayBundle Coords (SharedOriginRayBundle T) T :=
  mkRayBundle data so_new_shared_zero_origin.
(** lib.rs 349-353 *)
Definition new_shared_plusz_direction {Coords} (data : list (V3 T))
  : RayBundle Coords (SharedDirectionRayBundle T) T :=
  mkRayBundle data sd_new_plusz_shared_direction.
(** lib.rs 382-387 *)
Definition point_on_ray {Coords B} {HB : Bundle T B} (r : RayBundle Coords B T)
  : option (Points Coords T) :=
  b_point_on_ray Coords (rb_type r) (rb_data r).
(** lib.rs 391-400 *)
Definition point_on_ray_at_distance {Coords B} {HB : Bundle T B} (r : RayBundle Coords B T)
    (distance : T) : option (Points Coords T) :=
  b_point_on_ray_at_distance Coords (rb_type r) (rb_data r) distance.
(** lib.rs 403-414 *)
Definition to_pose {Coords B} {HB : Bundle T B} OutFrame (r : RayBundle Coords B T) (pose : Iso T)
  : option (RayBundle OutFrame B T) :=
  b_to_pose OutFrame (rb_type r) pose (rb_data r).

End Model.
