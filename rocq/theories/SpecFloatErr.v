(** * SpecFloatErr.v - words of the statements about rounding errors *)

From Coq Require Import ZArith Reals.
From Flocq Require Import Core BinarySingleNaN.
From Verif Require Import Linalg Perspective Orthographic Spec.
Local Open Scope R_scope.

Section S.
Context {prec emax : Z}.
Local Notation F := (binary_float prec emax).

(** finite and of absolute value between [lo] and [hi] *)
Definition sized (lo hi : R) (x : F) : Prop := is_finite x = true /\ lo <= Rabs (B2R x) <= hi.

(** the pixel [q] is finite and off from [p] by at most [e] in both coordinates *)
Definition pixel_within (e : R) (p q : V2 F) : Prop :=
  is_finite (px q) = true /\ is_finite (py q) = true /\
  Rabs (B2R (px q) - B2R (px p)) <= e /\ Rabs (B2R (py q) - B2R (py p)) <= e.

(** the real vector of a vector of finite floats *)
Definition vreal (v : V3 F) : V3 R := mkV3 (B2R (vx v)) (B2R (vy v)) (B2R (vz v)).
(** finite and off from the real number [a] by at most [e] *)
Definition near (e : R) (x : F) (a : R) : Prop := is_finite x = true /\ Rabs (B2R x - a) <= e.
Definition vec_near (e : R) (v : V3 F) (w : V3 R) : Prop :=
  near e (vx v) (vx w) /\ near e (vy v) (vy w) /\ near e (vz v) (vz w).
Definition pix_near (e : R) (p : V2 F) (w : V2 R) : Prop :=
  near e (px p) (px w) /\ near e (py p) (py w).
Definition quat_near (e : R) (q : Quat F) (w : Quat R) : Prop :=
  near e (qi q) (qi w) /\ near e (qj q) (qj w) /\ near e (qk q) (qk w) /\ near e (qw q) (qw w).
(** all coordinates finite and of absolute value at most [M] *)
Definition vec_sized (M : R) (v : V3 F) : Prop := sized 0 M (vx v) /\ sized 0 M (vy v) /\ sized 0 M (vz v).
(** all coordinates finite; no coordinate finite *)
Definition vec_finite (v : V3 F) : Prop := is_finite (vx v) = true /\ is_finite (vy v) = true /\ is_finite (vz v) = true.
Definition vec_not_finite (v : V3 F) : Prop := is_finite (vx v) = false /\ is_finite (vy v) = false /\ is_finite (vz v) = false.
(** the point [distance] away from [c] in the direction [d] *)
Definition point_away (c : V3 F) (distance : F) (d : V3 F) : V3 R :=
  vadd (vreal c) (vscl (B2R distance / vlen (vreal d)) (vreal d)).

(** the exact pixel of a point in camera coordinates, for the stored parameters *)
Definition pinhole (k : PerspectiveParams F) (y : V3 R) : V2 R :=
  mkV2 ((B2R (pp_fx k) * vx y + B2R (pp_skew k) * vy y) / vz y + B2R (pp_cx k))
       (B2R (pp_fy k) * vy y / vz y + B2R (pp_cy k)).
Definition parallel_pixel (k : OrthographicParams F) (y : V3 R) : V2 R :=
  mkV2 (B2R (op_sx k) * vx y + B2R (op_cx k)) (B2R (op_sy k) * vy y + B2R (op_cy k)).
(** both coordinates of absolute value at most [P] *)
Definition pix_within (P : R) (p : V2 R) : Prop := Rabs (px p) <= P /\ Rabs (py p) <= P.
Definition persp_sized (P : R) (k : PerspectiveParams F) : Prop :=
  sized 0 P (pp_fx k) /\ sized 0 P (pp_fy k) /\ sized 0 P (pp_skew k) /\ sized 0 P (pp_cx k) /\ sized 0 P (pp_cy k).
Definition ortho_sized (P : R) (k : OrthographicParams F) : Prop :=
  sized 0 P (op_sx k) /\ sized 0 P (op_sy k) /\ sized 0 P (op_cx k) /\ sized 0 P (op_cy k).
End S.
