(** * PropFloatRQ2.v - property theorems C123, C124: the pixels of cameras which come from matrices, in double precision *)

From Coq Require Import ZArith Reals List Bool Lra Lia.
From Flocq Require Import Core BinarySingleNaN.
From Verif Require Import Scalar Linalg Bundles Extrinsics Perspective Camera RealBase Spec SpecGeom SpecFloatErr SpecFloatRQ SpecFloatMat FloatRQProofs8 PropFloatWorld PropFloatMat PropFloatRQ.
Import ListNotations.
Local Open Scope R_scope.

Section F64.
Variables fsin fcos : f64 -> f64.
Local Hint Extern 0 (Ops f64) => exact (f64_ops fsin fcos) : typeclass_instances.
Local Notation u := (bpow radix2 (- (53))).

(** C123: a camera, and the camera which from_perspective_matrix finds in the matrix of
    as_camera_matrix: for points within 10 of the origin and at depth 1 or more, both report
    the same pixels up to 1/20. *)
Theorem C123_roundtrip_pixels_f64 (k : PerspectiveParams f64) (qh : Quat f64) q c pts : unit_quat q -> quat_near (8 * u) qh q -> vec_sized 10 c ->
  sized 1 2000 (pp_fx k) -> sized 1 2000 (pp_fy k) -> 0 < B2R (pp_fx k) -> 0 < B2R (pp_fy k) ->
  sized 0 (B2R (pp_fx k)) (pp_skew k) -> sized 0 (B2R (pp_fx k)) (pp_cx k) -> sized 0 (B2R (pp_fy k)) (pp_cy k) ->
  1 <= Rabs (vz (mv (rotm q) (vreal c))) ->
  Forall (fun x => vec_sized 10 x /\ 1 <= depth q (vreal c) (vreal x) /\ pix_within 2000 (pinhole k (to_camera q (vreal c) (vreal x)))) pts ->
  let cam := camera_new (perspective_from k) (from_rotation_and_camcenter qh c) in
  exists cam' out out', from_perspective_matrix (as_camera_matrix cam) = Some (Ok cam') /\
    world_to_pixel cam (mkPoints pts) = Some (mkPixels out) /\ world_to_pixel cam' (mkPoints pts) = Some (mkPixels out') /\
    Forall2 (pixel_within (1 / 20)) out out' /\
    Forall2 (fun x p => pix_near (1 / 20) p (pinhole k (to_camera q (vreal c) (vreal x)))) pts out'.
Proof. exact (C123_lemma fsin fcos k qh q c pts). Qed.

(** C124: a matrix of doubles which is s K [R | -R c] up to rounding, s of any sign: the camera
    which from_perspective_matrix finds in it projects like the exact matrix, up to 1/2000. *)
Theorem C124_matrix_pixels_f64 (p : M34 f64) s fx fy skew cx cy q c pts :
  / 1000000 <= Rabs s <= 1000000 -> 1 <= fx <= 2000 -> 1 <= fy <= 2000 -> Rabs skew <= fx -> Rabs cx <= fx -> Rabs cy <= fy ->
  unit_quat q -> vlen c <= 10 -> entries_near (bpow radix2 (-52)) p (scaled_matrix s fx fy skew cx cy q c) ->
  Forall (fun x => vec_sized 10 x /\ 1 <= depth q c (vreal x) /\ pix_within 2000 (hproject (scaled_matrix s fx fy skew cx cy q c) (vreal x))) pts ->
  exists cam out, from_perspective_matrix p = Some (Ok cam) /\ world_to_pixel cam (mkPoints pts) = Some (mkPixels out) /\
    Forall2 (fun x px => pix_near (1 / 2000) px (hproject (scaled_matrix s fx fy skew cx cy q c) (vreal x))) pts out.
Proof. exact (C124_lemma fsin fcos p s fx fy skew cx cy q c pts). Qed.

Local Notation lit m e := (@o_lit f64 (f64_ops fsin fcos) m%Z e%Z).
Local Ltac val := cbv -[IZR Rdiv Rinv Rmult Rplus Ropp]; lra.
Local Ltac size v := split; [reflexivity|];
  match goal with |- _ <= Rabs ?x <= _ => replace x with v; [rewrite Rabs_pos_eq; lra|] end; val.
(** the camera of PropFloatWorld.v, and the point (3, 9, 1) *)
Local Notation qh := (ex_qh fsin fcos). Local Notation ch := (ex_ch fsin fcos). Local Notation kh := (ex_kh fsin fcos).
Definition ex_x9 : V3 f64 := mkV3 (lit 3 0) (lit 9 0) (lit 1 0).
Example C123_case : exists cam' p p', from_perspective_matrix (as_camera_matrix (camera_new (perspective_from kh) (from_rotation_and_camcenter qh ch))) = Some (Ok cam') /\
  world_to_pixel (camera_new (perspective_from kh) (from_rotation_and_camcenter qh ch)) (mkPoints [ex_x9]) = Some (mkPixels [p]) /\
  world_to_pixel cam' (mkPoints [ex_x9]) = Some (mkPixels [p']) /\ pixel_within (1 / 20) p p' /\ pix_near (1 / 20) p' (mkV2 ((2000 + 97/100) / (154/25) + 321) (1002 * (97/25) / (154/25) + 240)).
Proof.
  assert (A : vreal ch = mkV3 1 2 3) by (unfold vreal, ex_ch; f_equal; val).
  assert (B : vreal ex_x9 = mkV3 3 9 1) by (unfold vreal, ex_x9; f_equal; val).
  assert (X1 : B2R (pp_fx kh) = 1000) by val. assert (X2 : B2R (pp_fy kh) = 1002) by val. assert (X3 : B2R (pp_skew kh) = 1 / 4) by val. assert (X4 : B2R (pp_cx kh) = 321) by val. assert (X5 : B2R (pp_cy kh) = 240) by val.
  assert (T : to_camera ex_qr (vreal ch) (vreal ex_x9) = mkV3 2 (97/25) (154/25)).
  { rewrite A, B. unfold to_camera, mv, rotm, vsub, ex_qr. cbn. f_equal; lra. }
  assert (Q : pinhole kh (mkV3 2 (97/25) (154/25)) = mkV2 ((2000 + 97/100) / (154/25) + 321) (1002 * (97/25) / (154/25) + 240)).
  { change (mkV2 ((B2R (pp_fx kh) * 2 + B2R (pp_skew kh) * (97/25)) / (154/25) + B2R (pp_cx kh)) (B2R (pp_fy kh) * (97/25) / (154/25) + B2R (pp_cy kh)) = mkV2 ((2000 + 97/100) / (154/25) + 321) (1002 * (97/25) / (154/25) + 240)).
    rewrite X1, X2, X3, X4, X5. f_equal; lra. }
  destruct (C123_roundtrip_pixels_f64 kh qh ex_qr ch [ex_x9] ex_qr_unit (ex_qh_near fsin fcos)) as (cam' & out & out' & E1 & E2 & E3 & W1 & W2); rewrite ?X1, ?X2; try lra.
  - split; [size 1|split; [size 2|size 3]].
  - split; [reflexivity|rewrite X1, Rabs_pos_eq; lra].
  - split; [reflexivity|rewrite X2, Rabs_pos_eq; lra].
  - split; [reflexivity|rewrite X3, Rabs_pos_eq; lra].
  - split; [reflexivity|rewrite X4, Rabs_pos_eq; lra].
  - split; [reflexivity|rewrite X5, Rabs_pos_eq; lra].
  - rewrite ex_tz, Rabs_pos_eq; lra.
  - constructor; [|constructor]. split; [split; [size 3|split; [size 9|size 1]]|]. unfold depth. rewrite T, Q. split; [cbn; lra|]. split; cbn [px py]; rewrite Rabs_pos_eq; lra.
  - inversion W2 as [|? p' ? l2 N2 W2']; subst. inversion W2'; subst. inversion W1 as [|p ? l1 ? N1 W1']; subst. inversion W1'; subst. rewrite T, Q in N2.
    exists cam', p, p'. split; [exact E1|]. split; [exact E2|]. split; [exact E3|]. split; [exact N1|exact N2].
Qed.
(** the matrix of PropFloatRQ.v, and the point (2, 5, 3) *)
Definition ex_x253 : V3 f64 := mkV3 (lit 2 0) (lit 5 0) (lit 3 0).
Example C124_case : exists cam p, from_perspective_matrix (ex_rq fsin fcos) = Some (Ok cam) /\ world_to_pixel cam (mkPoints [ex_x253]) = Some (mkPixels [p]) /\
  pix_near (1 / 2000) p (mkV2 (1300 / 3) (-100)).
Proof.
  assert (B : vreal ex_x253 = mkV3 2 5 3) by (unfold vreal, ex_x253; f_equal; val).
  assert (T : to_camera ex_rq_q (mkV3 1 2 2) (mkV3 2 5 3) = mkV3 1 1 3).
  { unfold to_camera, mv, rotm, vsub, ex_rq_q. cbn [m00 m01 m02 m10 m11 m12 m20 m21 m22 vx vy vz qi qj qk qw]. f_equal; lra. }
  assert (Q : hproject (scaled_matrix (-2) 400 300 0 300 (-200) ex_rq_q (mkV3 1 2 2)) (mkV3 2 5 3) = mkV2 (1300 / 3) (-100)).
  { rewrite hproject_scaled; [|lra|unfold depth; rewrite T; cbn [vz]; lra]. rewrite T. unfold pixR. cbn [vx vy vz]. f_equal; lra. }
  destruct (C124_matrix_pixels_f64 (ex_rq fsin fcos) (-2) 400 300 0 300 (-200) ex_rq_q (mkV3 1 2 2) [ex_x253]) as (cam & out & E1 & E2 & W).
  - rewrite Rabs_left; lra.
  - lra.
  - lra.
  - rewrite Rabs_R0. lra.
  - rewrite Rabs_pos_eq; lra.
  - rewrite Rabs_left; lra.
  - unfold unit_quat, ex_rq_q. val.
  - unfold vlen, vdot. cbn [vx vy vz]. replace (1 * 1 + 2 * 2 + 2 * 2) with (3 * 3) by lra. rewrite sqrt_square; lra.
  - apply ex_rq_near.
  - constructor; [|constructor]. split; [split; [size 2|split; [size 5|size 3]]|]. rewrite B, Q. unfold depth. rewrite T. split; [cbn [vz]; lra|].
    split; cbn [px py]; [rewrite Rabs_pos_eq; lra|rewrite Rabs_left; lra].
  - inversion W as [|? p ? l N W']; subst. inversion W'; subst. rewrite B, Q in N. exists cam, p. split; [exact E1|]. split; [exact E2|exact N].
Qed.
End F64.
Print Assumptions C123_roundtrip_pixels_f64.
Print Assumptions C124_matrix_pixels_f64.
