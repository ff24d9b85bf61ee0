(** * SpecIsect.v - vocabulary of the properties of best_intersection_of_rays *)

From Coq Require Import Reals List.
From Verif Require Import Linalg Bundles RayIntersection Spec.
Import ListNotations.
Local Open Scope R_scope.

Definition rsum (l : list R) : R := fold_right Rplus 0 l.

(** Squared distance of [y] from the line through [p] along [d <> 0]. *)
Definition line_dist2 (y p d : V3 R) : R :=
  vdot (vcross (vsub y p) d) (vcross (vsub y p) d) / vdot d d.
Definition sum_sq_dist {C} (rays : list (Ray C R)) (y : V3 R) : R :=
  rsum (map (fun r => line_dist2 y (ray_center r) (ray_direction r)) rays).
(** Sum of the squared sines of the angles between the unit vector [v] and the rays. *)
Definition sum_sq_sin {C} (rays : list (Ray C R)) (v : V3 R) : R :=
  rsum (map (fun r => line_dist2 v vO (ray_direction r)) rays).
Definition nonzero_dirs {C} (rays : list (Ray C R)) : Prop :=
  Forall (fun r => ray_direction r <> vO) rays.

(** The f64 nearest to 1e-7. *)
Definition cutoff : R := 7555786372591432 * / 2 ^ 76.
(** No direction is nearly parallel to all rays. *)
Definition well_conditioned {C} (rays : list (Ray C R)) : Prop :=
  forall v, vlen v = 1 -> cutoff < sum_sq_sin rays v.

Definition cosine (a b : V3 R) : R := vdot a b / (vlen a * vlen b).

(** [m = u diag(s) vt] is a singular value decomposition. *)
Definition mdiag (s : V3 R) : M33 R := mkM33 (vx s) 0 0 0 (vy s) 0 0 0 (vz s).
Definition is_svd (m u : M33 R) (s : V3 R) (vt : M33 R) : Prop :=
  orthogonal u /\ orthogonal vt /\ 0 <= vx s /\ 0 <= vy s /\ 0 <= vz s /\
  mm (mm u (mdiag s)) vt = m.
(** If the routine returns anything when asked for both factors, it is a
    decomposition of its argument. *)
Definition svd_sound (svd : M33 R -> bool -> bool -> R -> nat -> option (SVD R)) : Prop :=
  forall m eps n d, svd m true true eps n = Some d ->
  exists u vt, svd_u d = Some u /\ svd_vt d = Some vt /\ is_svd m u (svd_s d) vt.

(** The same line, parametrized differently. *)
Definition same_line {C} (r r' : Ray C R) : Prop :=
  exists s t, s <> 0 /\ ray_direction r' = vscl s (ray_direction r) /\
              ray_center r' = vadd (ray_center r) (vscl t (ray_direction r)).
(** A ray moved by [x |-> m x + t]. *)
Definition move_ray {C} (m : M33 R) (t : V3 R) (r : Ray C R) : Ray C R :=
  mkRay (vadd (mv m (ray_center r)) t) (mv m (ray_direction r)).
