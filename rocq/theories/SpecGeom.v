(** * SpecGeom.v - vocabulary of the properties about images of points, segments and planes *)

From Coq Require Import Reals.
From Verif Require Import Linalg Spec.
Local Open Scope R_scope.

(** Depth of a world point: its third camera coordinate. *)
Definition depth (q : Quat R) (c x : V3 R) : R := vz (to_camera q c x).
(** The point which divides a segment in the ratio [s : 1 - s]. *)
Definition lerp (s : R) (a b : V3 R) : V3 R := vadd (vscl (1 - s) a) (vscl s b).
Definition lerp2 (s : R) (a b : V2 R) : V2 R :=
  mkV2 ((1 - s) * px a + s * px b) ((1 - s) * py a + s * py b).
(** Inside the axis-parallel rectangle with corners [lo], [hi]. *)
Definition in_rect (lo hi p : V2 R) : Prop := px lo <= px p <= px hi /\ py lo <= py p <= py hi.

(** Homogeneous coordinates of pixels. *)
Definition homog (p : V2 R) : V3 R := mkV3 (px p) (py p) 1.
Definition dehomog (h : V3 R) : V2 R := mkV2 (vx h / vz h) (vy h / vz h).
(** [h] is a nonzero multiple of the homogeneous coordinates of [p]. *)
Definition represents (h : V3 R) (p : V2 R) : Prop := vz h <> 0 /\ p = dehomog h.

(** Distance of pixels. *)
Definition pdist (a b : V2 R) : R := sqrt ((px a - px b)² + (py a - py b)²).
