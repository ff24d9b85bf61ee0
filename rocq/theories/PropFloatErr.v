(** * PropFloatErr.v - property theorems C55, C56, C66: rounding errors of pixel round trips *)

From Coq Require Import ZArith Reals List Bool Lra Lia.
From Flocq Require Import Core BinarySingleNaN.
From Verif Require Import Scalar Linalg Bundles Perspective Orthographic TestUtils SpecFloatErr TestUtilsProofs FloatErrProofs FloatErrProofs2.
Import ListNotations.
Local Open Scope R_scope.

(** Any IEEE format with at least 5 bits of precision.  [M] bounds pixels and
    centers; scales are between [2^-E] and [2^E]; [bpow radix2 (- prec)] is the
    unit roundoff. *)
Section IEEE.
Variables (prec emax : Z) (Hp : Prec_gt_0 prec) (He : Prec_lt_emax prec emax).
Variables fsin fcos : binary_float prec emax -> binary_float prec emax.
Local Notation F := (binary_float prec emax).
Local Hint Extern 0 (Ops (binary_float prec emax)) =>
  exact (B_ops prec emax Hp He fsin fcos) : typeclass_instances.
Local Notation u := (bpow radix2 (- prec)).

(** C55: the orthographic round trip is off by at most 8 units of roundoff times [M]. *)
Theorem C55_ortho_roundtrip_error (E : Z) (M : R) (k : OrthographicParams F) pixels : (5 <= prec)%Z -> (0 <= E)%Z -> (2 * E + 5 <= emax)%Z -> 1 <= M <= bpow radix2 E ->
  sized (bpow radix2 (- E)) (bpow radix2 E) (op_sx k) -> sized (bpow radix2 (- E)) (bpow radix2 E) (op_sy k) -> sized 0 M (op_cx k) -> sized 0 M (op_cy k) ->
  Forall (fun p => sized 0 M (px p) /\ sized 0 M (py p)) (pix_data pixels) ->
  exists rays pts back,
    pixel_to_camera (orthographic_from k) pixels = Some rays /\
    point_on_ray rays = Some pts /\
    camera_to_pixel (orthographic_from k) pts = Some back /\
    Forall2 (pixel_within (8 * u * M)) (pix_data pixels) (pix_data back).
Proof. intros P5 E0 E2 M1. exact (C55_lemma prec emax Hp He fsin fcos E M P5 E0 E2 M1 k pixels). Qed.

(** C56: the perspective round trip is off by at most 24 units of roundoff times [M],
    for a skew no larger than [fy]. *)
Theorem C56_persp_roundtrip_error (E : Z) (M : R) (k : PerspectiveParams F) pixels : (5 <= prec)%Z -> (0 <= E)%Z -> (2 * E + 5 <= emax)%Z -> 1 <= M <= bpow radix2 E ->
  sized (bpow radix2 (- E)) (bpow radix2 E) (pp_fx k) -> sized (bpow radix2 (- E)) (bpow radix2 E) (pp_fy k) -> sized 0 M (pp_cx k) -> sized 0 M (pp_cy k) ->
  sized 0 (Rabs (B2R (pp_fy k))) (pp_skew k) ->
  Forall (fun p => sized 0 M (px p) /\ sized 0 M (py p)) (pix_data pixels) ->
  exists rays pts back,
    pixel_to_camera (perspective_from k) pixels = Some rays /\
    point_on_ray rays = Some pts /\
    camera_to_pixel (perspective_from k) pts = Some back /\
    Forall2 (pixel_within (24 * u * M)) (pix_data pixels) (pix_data back).
Proof. intros P5 E0 E2 M1. exact (C56_lemma prec emax Hp He fsin fcos E M P5 E0 E2 M1 k pixels). Qed.

(** C66: the public helper succeeds in IEEE arithmetic with a tolerance of at least these errors. *)
Theorem C66_helper_succeeds_ieee (E : Z) (M : R) umax (as_scalar : nat -> F) width height step border (eps : F) : (5 <= prec)%Z -> (0 <= E)%Z -> (2 * E + 5 <= emax)%Z -> 1 <= M <= bpow radix2 E ->
  (0 < step)%nat -> (width <= umax)%nat -> (height <= umax)%nat ->
  (forall n, (n < width \/ n < height)%nat -> sized 0 M (as_scalar n)) ->
  generate_uv_raw umax as_scalar width height step border <> None ->
  is_finite eps = true ->
  (forall k : OrthographicParams F,
     sized (bpow radix2 (- E)) (bpow radix2 E) (op_sx k) -> sized (bpow radix2 (- E)) (bpow radix2 E) (op_sy k) -> sized 0 M (op_cx k) -> sized 0 M (op_cy k) ->
     8 * u * M <= B2R eps ->
     roundtrip_intrinsics umax as_scalar (orthographic_from k) width height step border eps = Some tt) /\
  (forall k : PerspectiveParams F,
     sized (bpow radix2 (- E)) (bpow radix2 E) (pp_fx k) -> sized (bpow radix2 (- E)) (bpow radix2 E) (pp_fy k) -> sized 0 M (pp_cx k) -> sized 0 M (pp_cy k) ->
     sized 0 (Rabs (B2R (pp_fy k))) (pp_skew k) ->
     24 * u * M <= B2R eps ->
     roundtrip_intrinsics umax as_scalar (perspective_from k) width height step border eps = Some tt).
Proof. intros P5 E0 E2 M1. exact (C66_lemma prec emax Hp He fsin fcos E M P5 E0 E2 M1 umax as_scalar width height step border eps). Qed.

End IEEE.
Print Assumptions C55_ortho_roundtrip_error.
Print Assumptions C56_persp_roundtrip_error.
Print Assumptions C66_helper_succeeds_ieee.

Section F64.
Variables fsin fcos : f64 -> f64.
Local Hint Extern 0 (Ops f64) => exact (f64_ops fsin fcos) : typeclass_instances.

(** C55: double precision, pixel coordinates and centers up to 10000, scales from 1/1000 to 1000000. *)
Theorem C55_ortho_roundtrip_f64 (k : OrthographicParams f64) pixels :
  sized (1 / 1000) 1000000 (op_sx k) -> sized (1 / 1000) 1000000 (op_sy k) ->
  sized 0 10000 (op_cx k) -> sized 0 10000 (op_cy k) ->
  Forall (fun p => sized 0 10000 (px p) /\ sized 0 10000 (py p)) (pix_data pixels) ->
  exists rays pts back,
    pixel_to_camera (orthographic_from k) pixels = Some rays /\
    point_on_ray rays = Some pts /\
    camera_to_pixel (orthographic_from k) pts = Some back /\
    Forall2 (pixel_within (1 / 100000000000)) (pix_data pixels) (pix_data back).
Proof. exact (C55b_lemma fsin fcos k pixels). Qed.

(** C56: the same for the perspective camera. *)
Theorem C56_persp_roundtrip_f64 (k : PerspectiveParams f64) pixels :
  sized (1 / 1000) 1000000 (pp_fx k) -> sized (1 / 1000) 1000000 (pp_fy k) ->
  sized 0 10000 (pp_cx k) -> sized 0 10000 (pp_cy k) -> sized 0 (Rabs (B2R (pp_fy k))) (pp_skew k) ->
  Forall (fun p => sized 0 10000 (px p) /\ sized 0 10000 (py p)) (pix_data pixels) ->
  exists rays pts back,
    pixel_to_camera (perspective_from k) pixels = Some rays /\
    point_on_ray rays = Some pts /\
    camera_to_pixel (perspective_from k) pts = Some back /\
    Forall2 (pixel_within (3 / 100000000000)) (pix_data pixels) (pix_data back).
Proof. exact (C56b_lemma fsin fcos k pixels). Qed.


(** the camera of the examples: 100, 102, 321, 240, skew 1/4; pixels (640, 480) and (0, 7) *)
Local Notation lit m e := (@o_lit f64 (f64_ops fsin fcos) m%Z e%Z).
Local Ltac size v := split; [reflexivity|];
  match goal with |- _ <= Rabs ?x <= _ => replace x with v; [rewrite Rabs_pos_eq; lra|] end;
  cbv -[IZR Rdiv Rinv Rmult]; lra.
Definition ex_ko : OrthographicParams f64 := mkOP (lit 100 0) (lit 102 0) (lit 321 0) (lit 240 0).
Definition ex_kp : PerspectiveParams f64 := mkPP (lit 100 0) (lit 102 0) (lit 1 (-2)) (lit 321 0) (lit 240 0).
Definition ex_pix : Pixels f64 := mkPixels [mkV2 (lit 640 0) (lit 480 0); mkV2 (lit 0 0) (lit 7 0)].
Example s100 : sized (1 / 1000) 1000000 (lit 100 0). Proof. size 100. Qed.
Example s102 : sized (1 / 1000) 1000000 (lit 102 0). Proof. size 102. Qed.
Example s321 : sized 0 10000 (lit 321 0). Proof. size 321. Qed.
Example s240 : sized 0 10000 (lit 240 0). Proof. size 240. Qed.
Example spix : Forall (fun p => sized 0 10000 (px p) /\ sized 0 10000 (py p)) (pix_data ex_pix).
Proof.
  constructor; [split; [size 640|size 480]|]. constructor; [split; [size 0|size 7]|]. constructor.
Qed.
Example C55_case : exists rays pts back, pixel_to_camera (orthographic_from ex_ko) ex_pix = Some rays /\
  point_on_ray rays = Some pts /\ camera_to_pixel (orthographic_from ex_ko) pts = Some back /\
  Forall2 (pixel_within (1 / 100000000000)) (pix_data ex_pix) (pix_data back).
Proof. apply C55_ortho_roundtrip_f64; [apply s100|apply s102|apply s321|apply s240|apply spix]. Qed.
Example sskew : sized 0 (Rabs (B2R (lit 102 0))) (lit 1 (-2)).
Proof.
  replace (B2R (lit 102 0)) with 102 by (cbv -[IZR Rdiv Rinv Rmult]; lra). rewrite Rabs_pos_eq by lra. size (1/4).
Qed.
Example C56_case : exists rays pts back, pixel_to_camera (perspective_from ex_kp) ex_pix = Some rays /\
  point_on_ray rays = Some pts /\ camera_to_pixel (perspective_from ex_kp) pts = Some back /\
  Forall2 (pixel_within (3 / 100000000000)) (pix_data ex_pix) (pix_data back).
Proof. apply C56_persp_roundtrip_f64; [apply s100|apply s102|apply s321|apply s240|apply sskew|apply spix]. Qed.
(** the helper with the tolerance 2^-33 (about 1.2e-10) *)
Definition ex_as (n : nat) : f64 := if Nat.ltb n 4 then lit 7 0 else lit 640 0.
Example C66_case : roundtrip_intrinsics 1000 ex_as (perspective_from ex_kp) 640 480 5 5 (lit 1 (-33)) = Some tt.
Proof.
  assert (S : forall x : f64, sized (1 / 1000) 1000000 x -> sized (bpow radix2 (-20)) (bpow radix2 20) x) by exact scale_f64.
  assert (G : generate_uv_raw 1000 ex_as 640 480 5 5 <> None).
  { intros H. apply (proj1 (C53_lemma 1000 ex_as 640 480 5 5 ltac:(lia) ltac:(lia) ltac:(lia))) in H. lia. }
  apply (proj2 (C66_helper_succeeds_ieee 53 1024 f64_prec f64_emax fsin fcos 20 10000 1000 ex_as 640 480 5 5 (lit 1 (-33))
     ltac:(lia) ltac:(lia) ltac:(lia) range_f64 ltac:(lia) ltac:(lia) ltac:(lia)
     ltac:(intros n _; unfold ex_as; destruct (Nat.ltb n 4); [size 7|size 640]) G eq_refl) ex_kp).
  - apply S, s100. - apply S, s102. - apply s321. - apply s240. - apply sskew.
  - replace (B2R (lit 1 (-33))) with (/ 8589934592) by (cbv -[IZR Rdiv Rinv Rmult]; lra).
    pose proof u_f64. lra.
Qed.
End F64.
Print Assumptions C55_ortho_roundtrip_f64.
Print Assumptions C56_persp_roundtrip_f64.
