(** * Linearize.v - model of /repo/src/linearize.rs *)

From Coq Require Import List.
From Verif Require Import Scalar Linalg Bundles Extrinsics Perspective Camera.

Section Model.
Context {T : Type} {O : Ops T}.
Local Open Scope S_scope.

(** linearize.rs 9-27: the cache holds only the matrix [m] *)
Definition jacobian_cache_new (cam : Camera T (IntrinsicParametersPerspective T)) : M34 T :=
  let p33 := as_intrinsics_matrix (cam_intrinsics cam) in
  let m := m33_mul34 p33 (matrix (cam_extrinsics cam)) in
  let m := if p00 m <? o_zero then m34_neg m else m in
  m34_div m (p23 m).

(** linearize.rs 36-78; the point is a [Points<_, _, U1, _>], a single row *)
Definition linearize_at (p : M34 T) (pt3d : V3 T) : M23 T :=
  let x := vx pt3d in
  let y := vy pt3d in
  let z := vz pt3d in
  let denom := p20 p * x + p21 p * y + p22 p * z + p23 p in
  let denom_sqrt := powi_m2 denom in
  let factor_u := p00 p * x + p01 p * y + p02 p * z + p03 p in
  let ux := (- p20 p) * denom_sqrt * factor_u + p00 p / denom in
  let uy := (- p21 p) * denom_sqrt * factor_u + p01 p / denom in
  let uz := (- p22 p) * denom_sqrt * factor_u + p02 p / denom in
  let factor_v := p10 p * x + p11 p * y + p12 p * z + p13 p in
  let vx := (- p20 p) * denom_sqrt * factor_v + p10 p / denom in
  let vy := (- p21 p) * denom_sqrt * factor_v + p11 p / denom in
  let vz := (- p22 p) * denom_sqrt * factor_v + p12 p / denom in
  mkM23 ux uy uz vx vy vz.

End Model.
