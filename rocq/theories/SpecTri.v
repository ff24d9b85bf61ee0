(** * SpecTri.v - vocabulary of the properties about triangulation *)

From Coq Require Import Reals List.
From Verif Require Import Scalar Linalg Bundles Extrinsics Perspective Orthographic Camera RayIntersection RealBase Spec SpecGeom SpecIsect.
Import ListNotations.
Local Open Scope R_scope.

(** [lam] bounds the sum of the squared sines between any direction and the rays. *)
Definition spread {C} (lam : R) (rays : list (Ray C R)) : Prop :=
  forall v, vlen v = 1 -> lam <= sum_sq_sin rays v.

(** [r] is the ray along which some camera, perspective or orthographic, sees [X]. *)
Definition persp_view (X : V3 R) (r : Ray WorldFrame R) : Prop :=
  exists k q c p (rb : RayBundle WorldFrame (SharedOriginRayBundle R) R),
    pp_fx k <> 0 /\ pp_fy k <> 0 /\ unit_quat q /\ depth q c X <> 0 /\
    let cam := camera_new (perspective_from k) (from_rotation_and_camcenter q c) in
    world_to_pixel cam (mkPoints [X]) = Some p /\ pixel_to_world cam p = Some rb /\ to_single_ray rb = Some r.
Definition ortho_view (X : V3 R) (r : Ray WorldFrame R) : Prop :=
  exists k q c p (rb : RayBundle WorldFrame (SharedDirectionRayBundle R) R),
    op_sx k <> 0 /\ op_sy k <> 0 /\ unit_quat q /\
    let cam := camera_new (orthographic_from k) (from_rotation_and_camcenter q c) in
    world_to_pixel cam (mkPoints [X]) = Some p /\ pixel_to_world cam p = Some rb /\ to_single_ray rb = Some r.

(** A camera and the pixel at which it reports a point. *)
Record observation := mkObs { ob_k : PerspectiveParams R; ob_q : Quat R; ob_c : V3 R; ob_p : V2 R }.
Definition ob_cam (o : observation) := camera_new (perspective_from (ob_k o)) (from_rotation_and_camcenter (ob_q o) (ob_c o)).
(** Squared size, at the depth of [X], of the error of the reported pixel ([p0] is the true one). *)
Definition pixel_noise2 (X : V3 R) (o : observation) (p0 : V2 R) : R :=
  let ey := (py (ob_p o) - py p0) / pp_fy (ob_k o) in
  let ex := (px (ob_p o) - px p0 - pp_skew (ob_k o) * ey) / pp_fx (ob_k o) in
  (depth (ob_q o) (ob_c o) X)² * (ex² + ey²).

(** Anything returned is a decomposition of a matrix within [eta] of the argument. *)
Definition svd_close (eta : R) (svd : M33 R -> bool -> bool -> R -> nat -> option (SVD R)) : Prop :=
  forall m eps n d, svd m true true eps n = Some d ->
  exists u vt, svd_u d = Some u /\ svd_vt d = Some vt /\ orthogonal u /\ orthogonal vt /\
    0 <= vx (svd_s d) /\ 0 <= vy (svd_s d) /\ 0 <= vz (svd_s d) /\
    forall v, vdist (mv (mm (mm u (mdiag (svd_s d))) vt) v) (mv m v) <= eta * vlen v.

(** The rays of a scene which is scaled by [s]. *)
Definition scale_ray {C} (s : R) (r : Ray C R) : Ray C R := mkRay (vscl s (ray_center r)) (ray_direction r).
