(** * PropFloatMat.v - property theorems C100, C101: rounding errors of the camera matrix and of the Jacobian *)

From Coq Require Import ZArith Reals List Bool Lra Lia.
From Flocq Require Import Core BinarySingleNaN.
From Verif Require Import Scalar Linalg Bundles Extrinsics Perspective Camera Linearize Spec SpecFloatErr SpecFloatMat FloatJacProofs FloatJacProofs2 FloatErrProofs2 FloatWorldProofs PropFloatWorld.
Import ListNotations.
Local Open Scope R_scope.

(** The setting of PropFloatWorld.v: [M] bounds the coordinates of the center and of the
    points, [P] the pixels and the parameters, [w] is the unit roundoff or, for a less accurate
    quaternion, more.  [d0] bounds the depth of the world origin from below, [d] that of the point. *)
Section IEEE.
Variables (prec emax : Z) (Hp : Prec_gt_0 prec) (He : Prec_lt_emax prec emax).
Variables fsin fcos : binary_float prec emax -> binary_float prec emax.
Local Notation F := (binary_float prec emax).
Local Hint Extern 0 (Ops (binary_float prec emax)) =>
  exact (B_ops prec emax Hp He fsin fcos) : typeclass_instances.
Local Notation u := (bpow radix2 (- prec)).
Local Notation big := (bpow radix2 emax).

(** C100: for every camera, whatever its numbers, the sign flip before the normalization has no
    effect, neither on the camera matrix nor on that of the Jacobian. *)
Theorem C100_sign_flip_no_effect_ieee (cam : Camera F (IntrinsicParametersPerspective F)) :
  let m := m33_mul34 (as_intrinsics_matrix (cam_intrinsics cam)) (matrix (cam_extrinsics cam)) in
  as_camera_matrix cam = m34_div m (p23 m) /\ jacobian_cache_new cam = m34_div m (p23 m).
Proof. exact (camera_matrix_any prec emax Hp He fsin fcos cam). Qed.

(** C100: the camera matrix is close to the exact one divided by its last entry,
    which is the depth of the world origin; its own last entry is 1. *)
Theorem C100_camera_matrix_error (w : R) (k : PerspectiveParams F) (qh : Quat F) q c M P d0 : u <= w <= / 2048 -> (17 <= emax)%Z ->
  unit_quat q -> quat_near (8 * w) qh q -> vec_sized M c -> 1 <= M -> persp_sized P k -> 1 <= P ->
  4096 * P * M * M < big -> 4096 * P * M * M < big * (d0 * d0) ->
  0 < d0 -> d0 <= Rabs (vz (mv (rotm q) (vreal c))) -> 40000 * w * M <= d0 ->
  let cam := camera_new (perspective_from k) (from_rotation_and_camcenter qh c) in
  matrix_near (1300 * w * (P / d0) * (M / d0)) (3100 * w * P * (M / d0) * (M / d0)) (as_camera_matrix cam)
    (exact_matrix k q (vreal c)) (- vz (mv (rotm q) (vreal c))) /\
  B2R (p23 (as_camera_matrix cam)) = 1.
Proof. intros (W1 & W2) E17 U N C M1 K P1 B1 B3 d01 dz Wd. exact (C100_lemma prec emax Hp He fsin fcos w W1 W2 E17 k qh q c M P d0 U N C M1 K P1 B1 B3 d01 dz Wd). Qed.

(** C101: the Jacobian is close to the derivative of the exact projection. *)
Theorem C101_jacobian_error (w : R) (k : PerspectiveParams F) (qh : Quat F) q c M P d0 x d : u <= w <= / 2048 -> (17 <= emax)%Z ->
  unit_quat q -> quat_near (8 * w) qh q -> vec_sized M c -> 1 <= M -> persp_sized P k -> 1 <= P ->
  4096 * P * M * M < big -> 4096 * P * M * M < big * (d0 * d0) ->
  0 < d0 -> d0 <= Rabs (vz (mv (rotm q) (vreal c))) -> 40000 * w * M <= d0 ->
  vec_sized M x -> 0 < d -> 40000 * w * M <= d -> 4096 * P * M * M < big * (d * d) ->
  d <= Rabs (vz (to_camera q (vreal c) (vreal x))) -> pix_within P (pinhole k (to_camera q (vreal c) (vreal x))) ->
  let J := linearize_at (jacobian_cache_new (camera_new (perspective_from k) (from_rotation_and_camcenter qh c))) x in
  let f y := pinhole k (to_camera q (vreal c) y) in
  let e := 7000 * w * (P / d) * (M / d) in
  derivative_near e (j00 J) (fun y => px (f y)) (vreal x) (mkV3 1 0 0) /\
  derivative_near e (j01 J) (fun y => px (f y)) (vreal x) (mkV3 0 1 0) /\
  derivative_near e (j02 J) (fun y => px (f y)) (vreal x) (mkV3 0 0 1) /\
  derivative_near e (j10 J) (fun y => py (f y)) (vreal x) (mkV3 1 0 0) /\
  derivative_near e (j11 J) (fun y => py (f y)) (vreal x) (mkV3 0 1 0) /\
  derivative_near e (j12 J) (fun y => py (f y)) (vreal x) (mkV3 0 0 1).
Proof. intros (W1 & W2) E17 U N C M1 K P1 B1 B3 d01 dz Wd. exact (C101_lemma prec emax Hp He fsin fcos w W1 W2 E17 k qh q c M P d0 U N C M1 K P1 B1 B3 d01 dz Wd x d). Qed.
End IEEE.
Print Assumptions C100_sign_flip_no_effect_ieee.
Print Assumptions C100_camera_matrix_error.
Print Assumptions C101_jacobian_error.

Section F64.
Variables fsin fcos : f64 -> f64.
Local Hint Extern 0 (Ops f64) => exact (f64_ops fsin fcos) : typeclass_instances.
Local Notation u := (bpow radix2 (- (53))).

(** C100: double precision, coordinates up to 100, parameters up to 10000, depths 1 or more. *)
Theorem C100_camera_matrix_f64 (qh : Quat f64) q c (k : PerspectiveParams f64) : unit_quat q -> quat_near (8 * u) qh q ->
  vec_sized 100 c -> persp_sized 10000 k -> 1 <= Rabs (vz (mv (rotm q) (vreal c))) ->
  matrix_near (2 / 10000000) (4 / 100000) (as_camera_matrix (camera_new (perspective_from k) (from_rotation_and_camcenter qh c)))
    (exact_matrix k q (vreal c)) (- vz (mv (rotm q) (vreal c))).
Proof. exact (C100b_lemma fsin fcos qh q c k). Qed.

(** C101: double precision, in pixels per unit of length. *)
Theorem C101_jacobian_f64 (qh : Quat f64) q c (k : PerspectiveParams f64) x : unit_quat q -> quat_near (8 * u) qh q ->
  vec_sized 100 c -> persp_sized 10000 k -> 1 <= Rabs (vz (mv (rotm q) (vreal c))) -> vec_sized 100 x ->
  1 <= Rabs (vz (to_camera q (vreal c) (vreal x))) -> pix_within 10000 (pinhole k (to_camera q (vreal c) (vreal x))) ->
  let J := linearize_at (jacobian_cache_new (camera_new (perspective_from k) (from_rotation_and_camcenter qh c))) x in
  let f y := pinhole k (to_camera q (vreal c) y) in
  let e := 8 / 10000000 in
  derivative_near e (j00 J) (fun y => px (f y)) (vreal x) (mkV3 1 0 0) /\
  derivative_near e (j01 J) (fun y => px (f y)) (vreal x) (mkV3 0 1 0) /\
  derivative_near e (j02 J) (fun y => px (f y)) (vreal x) (mkV3 0 0 1) /\
  derivative_near e (j10 J) (fun y => py (f y)) (vreal x) (mkV3 1 0 0) /\
  derivative_near e (j11 J) (fun y => py (f y)) (vreal x) (mkV3 0 1 0) /\
  derivative_near e (j12 J) (fun y => py (f y)) (vreal x) (mkV3 0 0 1).
Proof. exact (C101b_lemma fsin fcos qh q c k x). Qed.

(** The camera of PropFloatWorld.v: the world origin has depth -69/25, so it is
    behind the camera and the normalization changes the sign of the matrix. *)
Local Notation lit m e := (@o_lit f64 (f64_ops fsin fcos) m%Z e%Z).
Local Ltac val := cbv -[IZR Rdiv Rinv Rmult Rplus Ropp]; lra.
Local Ltac size v := split; [reflexivity|];
  match goal with |- _ <= Rabs ?x <= _ => replace x with v; [rewrite Rabs_pos_eq; lra|] end; val.
Local Notation qh := (ex_qh fsin fcos). Local Notation ch := (ex_ch fsin fcos). Local Notation xh := (ex_xh fsin fcos). Local Notation kh := (ex_kh fsin fcos).
Example ex_tz : vz (mv (rotm ex_qr) (vreal ch)) = 69 / 25.
Proof.
  assert (A : vreal ch = mkV3 1 2 3) by (unfold vreal, ex_ch; f_equal; val).
  rewrite A. unfold mv, rotm, ex_qr. cbn. lra.
Qed.
Example C100_case : let m := as_camera_matrix (camera_new (perspective_from kh) (from_rotation_and_camcenter qh ch)) in
  near (2 / 10000000) (p00 m) (- 25000 / 69) /\ near (2 / 10000000) (p22 m) (- 7 / 69).
Proof.
  cbv zeta. assert (T : 1 <= Rabs (vz (mv (rotm ex_qr) (vreal ch)))) by (rewrite ex_tz, Rabs_pos_eq; lra).
  pose proof (C100_camera_matrix_f64 qh ex_qr ch kh ex_qr_unit (ex_qh_near fsin fcos) (ex_ch_sized fsin fcos) (ex_kh_sized fsin fcos) T) as (N & _ & N2).
  destruct N as (N & _). destruct N2 as (_ & _ & N2 & _). rewrite ex_tz in N, N2.
  assert (A : B2R (lit 1000 0) = 1000) by val.
  assert (E0 : p00 (exact_matrix kh ex_qr (vreal ch)) = 1000).
  { unfold exact_matrix, hstack, mm, kreal, kmat, ex_kh, rotm, ex_qr, vdot, mrow0, mcol0. cbn [p00 m00 m01 m02 m10 m20 pp_fx pp_skew pp_cx vx vy vz qi qj qk qw]. rewrite A. lra. }
  assert (E2 : p22 (exact_matrix kh ex_qr (vreal ch)) = 7 / 25).
  { unfold exact_matrix, hstack, mm, kreal, kmat, ex_kh, rotm, ex_qr, vdot, mrow2, mcol2. cbn [p22 m20 m21 m22 m02 m12 vx vy vz qi qj qk qw]. lra. }
  rewrite E0 in N. rewrite E2 in N2. split.
  - replace (- 25000 / 69) with (1000 / - (69 / 25)) by field. exact N.
  - replace (- 7 / 69) with (7 / 25 / - (69 / 25)) by field. exact N2.
Qed.
Example C101_case : let J := linearize_at (jacobian_cache_new (camera_new (perspective_from kh) (from_rotation_and_camcenter qh ch))) xh in
  derivative_near (8 / 10000000) (j00 J) (fun y => px (pinhole kh (to_camera ex_qr (vreal ch) y))) (mkV3 3 20 1) (mkV3 1 0 0) /\
  derivative_near (8 / 10000000) (j12 J) (fun y => py (pinhole kh (to_camera ex_qr (vreal ch) y))) (mkV3 3 20 1) (mkV3 0 0 1).
Proof.
  cbv zeta. assert (T : 1 <= Rabs (vz (mv (rotm ex_qr) (vreal ch)))) by (rewrite ex_tz, Rabs_pos_eq; lra).
  assert (XS : vec_sized 100 xh) by (split; [size 3|split; [size 20|size 1]]).
  assert (T2 : 1 <= Rabs (vz (to_camera ex_qr (vreal ch) (vreal xh)))) by (rewrite ex_cam; cbn [vz]; rewrite Rabs_pos_eq; lra).
  assert (T3 : pix_within 10000 (pinhole kh (to_camera ex_qr (vreal ch) (vreal xh)))).
  { rewrite ex_cam, ex_pix. split; cbn [px py]; rewrite Rabs_pos_eq; lra. }
  pose proof (C101_jacobian_f64 qh ex_qr ch kh xh ex_qr_unit (ex_qh_near fsin fcos) (ex_ch_sized fsin fcos) (ex_kh_sized fsin fcos) T XS T2 T3) as H.
  cbv zeta in H. assert (V : vreal xh = mkV3 3 20 1) by (unfold vreal, ex_xh; f_equal; val). rewrite V in H.
  destruct H as (H1 & _ & _ & _ & _ & H6). exact (conj H1 H6).
Qed.
End F64.
Print Assumptions C100_camera_matrix_f64.
Print Assumptions C101_jacobian_f64.
