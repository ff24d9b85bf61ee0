(** * SpecEq.v - words of the statements about equality *)

From Coq Require Import List.
From Flocq Require Import BinarySingleNaN.
From Verif Require Import Linalg Bundles Extrinsics Perspective Orthographic.
Import ListNotations.

(** The same number: identical, or both a zero of either sign. *)
Definition same_number {prec emax} (x y : binary_float prec emax) : Prop :=
  x = y \/ exists s t, x = B754_zero s /\ y = B754_zero t.
Definition same_vec {prec emax} (a b : V3 (binary_float prec emax)) : Prop :=
  same_number (vx a) (vx b) /\ same_number (vy a) (vy b) /\ same_number (vz a) (vz b).
Definition same_quat {prec emax} (a b : Quat (binary_float prec emax)) : Prop :=
  same_number (qi a) (qi b) /\ same_number (qj a) (qj b) /\ same_number (qk a) (qk b) /\ same_number (qw a) (qw b).

(** All the numbers stored in a value. *)
Section Numbers.
Context {T : Type}.
Definition v3_numbers (a : V3 T) : list T := [vx a; vy a; vz a].
Definition m33_numbers (a : M33 T) : list T :=
  [m00 a; m01 a; m02 a; m10 a; m11 a; m12 a; m20 a; m21 a; m22 a].
Definition m34_numbers (a : M34 T) : list T :=
  [p00 a; p01 a; p02 a; p03 a; p10 a; p11 a; p12 a; p13 a; p20 a; p21 a; p22 a; p23 a].
Definition quat_numbers (a : Quat T) : list T := [qi a; qj a; qk a; qw a].
Definition iso_numbers (a : Iso T) : list T := quat_numbers (iso_rot a) ++ v3_numbers (iso_trans a).
Definition extrinsics_numbers (e : ExtrinsicParameters T) : list T :=
  let c := e_cache e in
  quat_numbers (e_rquat e) ++ v3_numbers (e_camcenter e) ++ m33_numbers (c_q c) ++ v3_numbers (c_translation c) ++
  m34_numbers (c_qt c) ++ m33_numbers (c_q_inv c) ++ v3_numbers (c_camcenter_z0 c) ++
  iso_numbers (c_pose c) ++ iso_numbers (c_pose_inv c).
Definition perspective_numbers (k : IntrinsicParametersPerspective T) : list T :=
  let p := ip_params k in [pp_fx p; pp_fy p; pp_skew p; pp_cx p; pp_cy p] ++ m34_numbers (ip_cache_p k).
Definition orthographic_numbers (k : IntrinsicParametersOrthographic T) : list T :=
  let p := io_params k in [op_sx p; op_sy p; op_cx p; op_cy p].
Definition bundle_numbers {C B} (nB : B -> list T) (b : RayBundle C B T) : list T :=
  flat_map v3_numbers (rb_data b) ++ nB (rb_type b).
End Numbers.

(** What Rust asks of [PartialEq]. *)
Definition partial_equivalence {A} (eqb : A -> A -> bool) : Prop :=
  (forall a b, eqb a b = true -> eqb b a = true) /\
  (forall a b c, eqb a b = true -> eqb b c = true -> eqb a c = true).
