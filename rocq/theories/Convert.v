(** * Convert.v - conversions between scalar types

    [na::try_convert::<R, f64>] and [na::convert::<f64, R>], used by
    ray_intersection.rs 15-37, 97, 142-166, 178, 180.  For the floating point types
    simba implements both with Rust's [as]: the nearest value of the target type
    (ties to even), signed zeros, infinities and NaN kept; [try_convert] never fails. *)

From Coq Require Import ZArith.
From Flocq Require Import Core BinarySingleNaN.
From Verif Require Import Scalar.

(** [x as f32] / [x as f64] *)
Definition B_as (prec emax prec' emax' : Z) (Hp : Prec_gt_0 prec') (He : Prec_lt_emax prec' emax')
    (x : binary_float prec emax) : binary_float prec' emax' :=
  match x with
  | B754_zero s => B754_zero s
  | B754_infinity s => B754_infinity s
  | B754_nan => B754_nan
  | B754_finite s m e _ => binary_normalize prec' emax' Hp He mode_NE (cond_Zopp s (Zpos m)) e s
  end.
(** [na::try_convert::<f32, f64>], [na::convert::<f64, f32>] *)
Definition f32_to_f64 (x : f32) : option f64 := Some (B_as 24 128 53 1024 f64_prec f64_emax x).
Definition f64_to_f32 (x : f64) : f32 := B_as 53 1024 24 128 f32_prec f32_emax x.
