(** * Examples.v - model of the mains of /repo/examples

    The first two are also the two examples in the documentation at the head of lib.rs.  A program is
    modelled by the numbers it prints; their layout is not modelled. *)

From Coq Require Import List ZArith.
From Verif Require Import Scalar Linalg Bundles Extrinsics Perspective Orthographic Camera RayIntersection Svg.
Import ListNotations.

Section Model.
Context {T : Type} {O : Ops T}.
Local Notation num z := (o_lit z%Z 0%Z).

(** 3d-to-2d.rs 3-41; the pairs printed by the loop at the end *)
Definition main_3d_to_2d : option (list (V3 T * V2 T)) :=
  let world_coords := mkPoints [mkV3 (num 1) (num 0) (num 0); mkV3 (num 0) (num 1) (num 0)] in
  let intrinsics := perspective_from (mkPP (num 100) (num 100) (num 0) (num 640) (num 480)) in
  let camcenter := mkV3 (num 10) (num 0) (num 0) in
  let lookat := mkV3 (num 0) (num 0) (num 0) in
  let up := v3_normalize (mkV3 (num 0) (num 0) (num 1)) in
  let pose := from_view camcenter lookat up in
  let camera := camera_new intrinsics pose in
  pixel_coords <- world_to_pixel camera world_coords ;;
  for_range 0 (length (pts_data world_coords)) (fun i printed =>
    wc <- nth_error (pts_data world_coords) i ;;
    pix <- nth_error (pix_data pixel_coords) i ;;
    Some (printed ++ [(wc, pix)])) [].

(** ray-intersect.rs 3-24; [unwrap] panics on an error *)
Definition main_ray_intersect {F} {OF : Ops F} (to64 : T -> option F) (from64 : F -> T)
    (svd : M33 F -> bool -> bool -> F -> nat -> option (SVD F)) : option (list (V3 T)) :=
  let ray1 := mkRay (Coords := WorldFrame) (mkV3 (num 1) (num 0) (num 0)) (mkV3 (num 0) (num 1) (num 0)) in
  let ray2 := mkRay (mkV3 (num 0) (num 1) (num 0)) (mkV3 (num 1) (num 0) (num 0)) in
  r <- best_intersection_of_rays to64 from64 svd [ray1; ray2] ;;
  match r with
  | Ok result => Some (pts_data result)
  | Err _ => None
  end.

(** render-cube.rs 10-29 *)
Definition get_perspective_cam : Camera T (IntrinsicParametersPerspective T) :=
  let intrinsics := mkPP (num 100) (num 100) (num 0) (num 640) (num 480) in
  let camcenter := mkV3 (num 10) (num 3) (num 5) in
  let lookat := mkV3 (num 0) (num 0) (num 0) in
  let up := v3_normalize (mkV3 (num 0) (num 0) (num 1)) in
  let pose := from_view camcenter lookat up in
  camera_new (perspective_from intrinsics) pose.

(** render-cube.rs 32-48; 8440730864110797 / 2^45 is the double nearest to 239.9 *)
Definition get_ortho_cam : Camera T (IntrinsicParametersOrthographic T) :=
  let intrinsics := mkOP (num 100) (num 102) (num 321) (o_lit 8440730864110797%Z (-45)%Z) in
  let camcenter := mkV3 (num 10) (num 3) (num 5) in
  let lookat := mkV3 (num 0) (num 0) (num 0) in
  let up := v3_normalize (mkV3 (num 0) (num 0) (num 1)) in
  let pose := from_view camcenter lookat up in
  camera_new (orthographic_from intrinsics) pose.

(** render-cube.rs 173-207; the lines in the two files *)
Definition main_render_cube : option (list ((T * T) * (T * T)) * list ((T * T) * (T * T))) :=
  let world_coords := mkPoints cube_verts in
  wtr <- render_wireframe world_coords cube_edges get_perspective_cam ;;
  file1 <- svg_save wtr ;;
  wtr <- render_wireframe world_coords cube_edges get_ortho_cam ;;
  file2 <- svg_save wtr ;;
  Some (file1, file2).
End Model.
