(** * Scalar.v - the scalar type of the crate

    The whole crate is generic over [R: nalgebra::RealField]
    (e.g. /repo/src/lib.rs 177, /repo/src/extrinsics.rs 20).  The model is
    generic over a type [T] with the operations below.  Two families of
    instances follow: exact real arithmetic and IEEE-754 binary arithmetic. *)

From Coq Require Import ZArith Reals Bool.
From Flocq Require Import Core BinarySingleNaN.

(** The operations of [RealField] which the crate (and the nalgebra and approx
    functions it calls) uses.
    - [o_lit m e] is [nalgebra::convert] of the f64 literal [m * 2^e]
      (every f64 literal is such a dyadic number).
    - [o_sin], [o_cos]: the pair returned by [simd_sin_cos].
    - [o_signum]: [f64::signum], i.e. [copysign 1 x] (1 on +0).
    - [o_isinf]: [f64::is_infinite].
    - [o_eps]: [approx]'s default epsilon ([f64::EPSILON] for f64). *)
Class Ops (T : Type) := {
  o_add : T -> T -> T;
  o_sub : T -> T -> T;
  o_mul : T -> T -> T;
  o_div : T -> T -> T;
  o_neg : T -> T;
  o_abs : T -> T;
  o_sqrt : T -> T;
  o_signum : T -> T;
  o_sin : T -> T;
  o_cos : T -> T;
  o_zero : T;
  o_one : T;
  o_lit : Z -> Z -> T;
  o_ltb : T -> T -> bool;
  o_leb : T -> T -> bool;
  o_eqb : T -> T -> bool;
  o_isinf : T -> bool;
  o_eps : T
}.

Declare Scope S_scope.
Delimit Scope S_scope with S.
Infix "+" := o_add : S_scope.
Infix "-" := o_sub : S_scope.
Infix "*" := o_mul : S_scope.
Infix "/" := o_div : S_scope.
Notation "- x" := (o_neg x) : S_scope.
(** Rust's [a < b], [a > b] and [a <= b] on scalars. *)
Infix "<?" := o_ltb : S_scope.
Notation "a >? b" := (o_ltb b a) (only parsing) : S_scope.
Infix "<=?" := o_leb : S_scope.

(** Often used literals: [convert(2.0)], [convert(-2.0)], [convert(0.25)],
    [convert(-1.0)]. *)
Definition o_two {T} {O : Ops T} : T := o_lit 2 0.
Definition o_mtwo {T} {O : Ops T} : T := o_lit (-2) 0.
Definition o_quarter {T} {O : Ops T} : T := o_lit 1 (-2).
Definition o_mone {T} {O : Ops T} : T := o_lit (-1) 0.

(** [std::f64::consts::PI] = 0x1.921fb54442d18p+1 (/repo/src/extrinsics.rs 115). *)
Definition o_pi64 {T} {O : Ops T} : T := o_lit 884279719003555 (-48).

(** [f64::powi] (compiler-rt [__powidf2]) for the exponents used:
    [x.powi(2)] (/repo/src/ray_intersection.rs 100) and [x.powi(-2)]
    (/repo/src/linearize.rs 54). *)
Definition powi2 {T} {O : Ops T} (x : T) : T := (x * x)%S.
Definition powi_m2 {T} {O : Ops T} (x : T) : T := (o_one / (x * x))%S.

(** ** Exact real arithmetic.  Division by zero and square roots of negative
    numbers are totalised by Coq's library; theorems exclude them explicitly. *)
Definition Rltb (a b : R) : bool := if Rlt_dec a b then true else false.
Definition Rleb (a b : R) : bool := if Rle_dec a b then true else false.
Definition Reqb (a b : R) : bool := if Req_EM_T a b then true else false.

#[global] Instance R_ops : Ops R := {|
  o_add := Rplus;
  o_sub := Rminus;
  o_mul := Rmult;
  o_div := Rdiv;
  o_neg := Ropp;
  o_abs := Rabs;
  o_sqrt := sqrt;
  o_signum := fun x => if Rlt_dec x 0 then (-1)%R else 1%R;
  o_sin := sin;
  o_cos := cos;
  o_zero := 0%R;
  o_one := 1%R;
  o_lit := fun m e => (IZR m * powerRZ 2 e)%R;
  o_ltb := Rltb;
  o_leb := Rleb;
  o_eqb := Reqb;
  o_isinf := fun _ => false;
  o_eps := (/ 4503599627370496)%R   (* 2^-52, as for f64 *)
|}.

(** ** IEEE-754 arithmetic, round to nearest even.  There is one NaN: the crate
    never looks at NaN payloads.  [fsin] and [fcos] are whatever the platform's
    math library computes. *)
Definition B_ops (prec emax : Z) (Hp : Prec_gt_0 prec) (He : Prec_lt_emax prec emax)
    (fsin fcos : binary_float prec emax -> binary_float prec emax)
  : Ops (binary_float prec emax) := {|
  o_add := Bplus mode_NE;
  o_sub := Bminus mode_NE;
  o_mul := Bmult mode_NE;
  o_div := Bdiv mode_NE;
  o_neg := Bopp;
  o_abs := Babs;
  o_sqrt := Bsqrt mode_NE;
  o_signum := fun x => if is_nan x then B754_nan
                       else if Bsign x then Bopp Bone else Bone;
  o_sin := fsin;
  o_cos := fcos;
  o_zero := B754_zero false;
  o_one := Bone;
  o_lit := fun m e => binary_normalize prec emax Hp He mode_NE m e false;
  o_ltb := Bltb;
  o_leb := Bleb;
  o_eqb := Beqb;
  o_isinf := fun x => match x with B754_infinity _ => true | _ => false end;
  o_eps := binary_normalize prec emax Hp He mode_NE 1 (1 - prec) false
|}.

(** The two scalar types used in practice. *)
Definition f64 : Type := binary_float 53 1024.
#[global] Instance f64_prec : Prec_gt_0 53 := eq_refl.
#[global] Instance f64_emax : Prec_lt_emax 53 1024 := eq_refl.
Definition f64_ops (fsin fcos : f64 -> f64) : Ops f64 :=
  B_ops 53 1024 f64_prec f64_emax fsin fcos.
Definition f32 : Type := binary_float 24 128.
#[global] Instance f32_prec : Prec_gt_0 24 := eq_refl.
#[global] Instance f32_emax : Prec_lt_emax 24 128 := eq_refl.
Definition f32_ops (fsin fcos : f32 -> f32) : Ops f32 :=
  B_ops 24 128 f32_prec f32_emax fsin fcos.
