(** * PropFloatSvd6.v - property theorem C119: triangulation from pixels in IEEE arithmetic when the lines of sight are close together *)

From Coq Require Import ZArith Reals List Bool Lra Lia.
From Flocq Require Import Core BinarySingleNaN.
From Verif Require Import Scalar Linalg Bundles Extrinsics Perspective Orthographic Camera RayIntersection SymEigen Spec SpecGeom SpecIsect SpecTri
  SpecFloatErr SpecFloatIsect SpecFloatTri RealBase VecLemmas TriProofs Convert FloatSvdProofs26 PropFloatTri PropFloatIsect PropFloatSvd4.
Import ListNotations.
Local Open Scope R_scope.

(** C119: C115 with the error in relation to the spread of the lines of sight to the first
    power (to the power one half for the errors of the pixels), and the spread as small as
    about 6e-6 n. *)
Section IEEE.
Variables (prec emax : Z) (Hp : Prec_gt_0 prec) (He : Prec_lt_emax prec emax).
Variables fsin fcos : binary_float prec emax -> binary_float prec emax.
Variables gsin gcos : f64 -> f64.
Local Notation F := (binary_float prec emax).
Local Hint Extern 0 (Ops (binary_float prec emax)) =>
  exact (B_ops prec emax Hp He fsin fcos) : typeclass_instances.
Local Hint Extern 0 (Ops (binary_float 53 1024)) => exact (f64_ops gsin gcos) : typeclass_instances.
Local Notation u := (bpow radix2 (- prec)).
Local Notation v := (bpow radix2 (- (53))).
Local Notation big := (bpow radix2 emax).

Theorem C119_triangulation_error (E : Z) to64 from64 w M P f Z eps X (rays : list (Ray WorldFrame F)) truth om lam :
  (24 <= prec <= 53)%Z -> (emax <= 1024)%Z -> (0 <= E)%Z -> (2 * E + 34 <= emax)%Z ->
  exact_to64 to64 -> rounds_from64 from64 -> u <= w <= / 2048 ->
  1 <= M -> 1 <= P -> 512 * P * M < big -> 0 < f -> 5 * P <= M * f -> 1 <= Z -> 0 <= eps ->
  let n := INR (length rays) in
  n * (4 * M) <= bpow radix2 E -> n <= 2 ^ 36 -> (2 <= length rays)%nat ->
  Forall2 (fun r t => seen_persp w M P f Z eps X r t \/ seen_ortho w M P f Z eps X r t) rays truth -> spread lam truth ->
  u <= om -> om <= / 16000000 -> 1 / 10 ^ 11 <= om ->
  let s := 3.5 * ((eps + 13.2 * w * P) / f) + 530 * w * M in
  let mu := lam - 2 * s * n in
  let eta := 3 / 10 ^ 6 * n + 3 * n * (25 * u + (n + 1) * v) in
  2 * eta <= mu ->
  let e := (2600 * w * M + Z * s) * sqrt (n / mu) in
  exists x', best_intersection_of_rays to64 from64 svd3_try_new rays = Some (Ok (mkPoints [x'])) /\ vec_finite x' /\
    vdist (vreal x') X <= e + (eta * (vlen X + e) + n * (4 * M) * (810 * om + 6 * (n + 1) * v)) / (mu - eta).
Proof. exact (C119_lemma prec emax Hp He fsin fcos gsin gcos E to64 from64 w M P f Z eps X rays truth om lam). Qed.
End IEEE.
Print Assumptions C119_triangulation_error.

Section F64.
Variables fsin fcos : f64 -> f64.
Local Hint Extern 0 (Ops f64) => exact (f64_ops fsin fcos) : typeclass_instances.
Local Hint Extern 0 (Ops (binary_float 53 1024)) => exact (f64_ops fsin fcos) : typeclass_instances.
Local Notation u := (bpow radix2 (- (53))).

(** C119: double precision, up to 1000 cameras with centers up to 100, focal lengths (scales)
    from 500, parameters and pixels up to 10000; [X] at depths of at most [Z]; lines of sight
    spread by at least n / 10000, and by at least a tenth of n times the error of the pixels. *)
Theorem C119_triangulation_f64 Z eps X (rays : list (Ray WorldFrame f64)) truth lam :
  let n := INR (length rays) in
  1 <= Z -> 0 <= eps -> (2 <= length rays)%nat -> n <= 1000 ->
  Forall2 (fun r t => seen_persp u 100 10000 500 Z eps X r t \/ seen_ortho u 100 10000 500 Z eps X r t) rays truth ->
  n <= 10 ^ 4 * lam -> eps * n <= 10 * lam -> spread lam truth ->
  exists x', best_intersection_of_rays (fun x : f64 => Some x) (fun x : f64 => x) svd3_try_new rays = Some (Ok (mkPoints [x'])) /\ vec_finite x' /\
    vdist (vreal x') X <= sqrt (n / lam) * Z * (8 / 1000 * eps + 1 / 10 ^ 10) + 4 / 10 ^ 6 * (n / lam) * (1 + vlen X).
Proof. exact (C119a_lemma fsin fcos Z eps X rays truth lam). Qed.

(** C119: a point projected by the program into several cameras and triangulated by the
    program from these pixels. *)
Local Notation cam a := (camera_new (perspective_from (fc_k a)) (from_rotation_and_camcenter (fc_qh a) (fc_c a))).
Theorem C119_own_pixels_f64 X (cams : list (fcam 53 1024)) lam : (2 <= length cams)%nat -> INR (length cams) <= 1000 -> vec_sized 100 X ->
  Forall (good_cam X) cams -> INR (length cams) <= 10 ^ 4 * lam ->
  spread lam (map (fun a => mkRay (Coords := WorldFrame) (vreal (fc_c a)) (vsub (vreal X) (vreal (fc_c a)))) cams) ->
  exists rays,
    Forall2 (fun a r => (p <- world_to_pixel (cam a) (mkPoints [X]) ;; rb <- pixel_to_world (cam a) p ;;
                         @to_single_ray f64 _ _ SharedOrigin_Bundle rb) = Some r) cams rays /\
    exists x', best_intersection_of_rays (fun x : f64 => Some x) (fun x : f64 => x) svd3_try_new rays = Some (Ok (mkPoints [x'])) /\ vec_finite x' /\
      vdist (vreal x') (vreal X) <= 1 / 10 ^ 6 * sqrt (INR (length cams) / lam) + 4 / 10 ^ 6 * (INR (length cams) / lam) * (1 + vlen (vreal X)).
Proof. exact (C119c_lemma fsin fcos X cams lam). Qed.

(** ** Case: two cameras at the origin and at (10,0,0), and the point (5,0,80), seen at an angle of 7 degrees *)
Local Notation lit m e := (@o_lit f64 _ m%Z e%Z).
Local Ltac val := cbv -[IZR Rdiv Rinv Rmult Ropp]; first [lra|field].
Local Ltac size v := split; [reflexivity|];
  match goal with |- _ <= Rabs ?x <= _ => let H := fresh in assert (H : x = v) by val; rewrite H end;
  first [rewrite Rabs_pos_eq; lra|rewrite Rabs_left; lra].
Local Notation fc1 := (ex_fc1 fsin fcos).
Local Notation fc2 := (ex_fc2 fsin fcos).
Definition ex_X80 : V3 f64 := mkV3 (lit 5 0) (lit 0 0) (lit 80 0).
Example ex_good80 : Forall (good_cam ex_X80) [fc1; fc2].
Proof.
  assert (Z : B2R (lit 0 0) = 0) by val. assert (A : B2R (lit 512 0) = 512) by val.
  assert (V1 : vreal ex_X80 = mkV3 5 0 80) by (unfold vreal, ex_X80; f_equal; val).
  assert (V2 : vreal (mkV3 (lit 0 0) (lit 0 0) (lit 0 0)) = mkV3 0 0 0) by (unfold vreal; f_equal; val).
  assert (V3 : vreal (mkV3 (lit 10 0) (lit 0 0) (lit 0 0)) = mkV3 10 0 0) by (unfold vreal; f_equal; val).
  assert (U : unit_quat (mkQuat 0 0 0 1)) by (unfold unit_quat, qnorm2; cbn; lra).
  assert (T1 : to_camera (mkQuat 0 0 0 1) (mkV3 0 0 0) (mkV3 5 0 80) = mkV3 5 0 80) by (apply V3_eq; ru_spec; lra).
  assert (T2 : to_camera (mkQuat 0 0 0 1) (mkV3 10 0 0) (mkV3 5 0 80) = mkV3 (-5) 0 80) by (apply V3_eq; ru_spec; lra).
  repeat apply Forall_cons; try apply Forall_nil; unfold good_cam, ex_fc1, ex_fc2; cbn [fc_k fc_qh fc_q fc_c];
    (split; [exact U|]); (split; [apply ex_qi_near|]); rewrite ?V1, ?V2, ?V3; unfold depth; rewrite ?T1, ?T2.
  - split; [split; [size 0|split; [size 0|size 0]]|]. split; [size 512|]. split; [size 512|]. split; [size 0|]. split; [size 0|]. split; [size 0|].
    split; [cbn [vz]; lra|]. unfold pinhole, ex_kt. cbn [pp_fx pp_fy pp_skew pp_cx pp_cy vx vy vz]. rewrite A, Z. split; cbn [px py].
    + replace ((512 * 5 + 0 * 0) / 80 + 0) with 32 by field. rewrite Rabs_pos_eq; lra.
    + replace (512 * 0 / 80 + 0) with 0 by field. rewrite Rabs_R0; lra.
  - split; [split; [size 10|split; [size 0|size 0]]|]. split; [size 512|]. split; [size 512|]. split; [size 0|]. split; [size 0|]. split; [size 0|].
    split; [cbn [vz]; lra|]. unfold pinhole, ex_kt. cbn [pp_fx pp_fy pp_skew pp_cx pp_cy vx vy vz]. rewrite A, Z. split; cbn [px py].
    + replace ((512 * -5 + 0 * 0) / 80 + 0) with (-32) by field. rewrite Rabs_left; lra.
    + replace (512 * 0 / 80 + 0) with 0 by field. rewrite Rabs_R0; lra.
Qed.
Example C119_case : exists rays x,
  Forall2 (fun a r => (p <- world_to_pixel (cam a) (mkPoints [ex_X80]) ;; rb <- pixel_to_world (cam a) p ;;
                       @to_single_ray f64 _ _ SharedOrigin_Bundle rb) = Some r) [fc1; fc2] rays /\
  best_intersection_of_rays (fun x : f64 => Some x) (fun x : f64 => x) svd3_try_new rays = Some (Ok (mkPoints [x])) /\
  vdist (vreal x) (mkV3 5 0 80) <= 1 / 10.
Proof.
  assert (V1 : vreal ex_X80 = mkV3 5 0 80) by (unfold vreal, ex_X80; f_equal; val).
  assert (V2 : vreal (fc_c fc1) = mkV3 0 0 0) by (unfold vreal, ex_fc1; cbn [fc_c]; f_equal; val).
  assert (V3 : vreal (fc_c fc2) = mkV3 10 0 0) by (unfold vreal, ex_fc2; cbn [fc_c]; f_equal; val).
  destruct (C119_own_pixels_f64 ex_X80 [fc1; fc2] (77 / 10000)) as (rays & A & B).
  - cbn. lia.
  - cbn. lra.
  - split; [size 5|split; [size 0|size 80]].
  - apply ex_good80.
  - cbn. lra.
  - cbn [map]. rewrite V1, V2, V3. apply (C86b_lemma [] [] [] (mkRay (mkV3 0 0 0) _) (mkRay (mkV3 10 0 0) _) (77 / 10000)).
    + repeat apply Forall_cons; try apply Forall_nil; cbn [ray_direction]; intros E; apply V3_inv in E; ru_spec; lra.
    + unfold cosine. cbn [ray_direction].
      replace (vdot (vsub (mkV3 5 0 80) (mkV3 0 0 0)) (vsub (mkV3 5 0 80) (mkV3 10 0 0))) with 6375 by (ru_spec; ring).
      assert (L1 : vlen (vsub (mkV3 5 0 80) (mkV3 0 0 0)) = sqrt 6425) by (unfold vlen; f_equal; ru_spec; ring).
      assert (L2 : vlen (vsub (mkV3 5 0 80) (mkV3 10 0 0)) = sqrt 6425) by (unfold vlen; f_equal; ru_spec; ring).
      rewrite L1, L2, sqrt_sqrt, Rabs_pos_eq by lra. lra.
    + lra.
  - exists rays. inversion A as [|? r1 ? ? E1 A']; subst. inversion A' as [|? r2 ? ? E2 A'']; subst. inversion A''; subst.
    destruct B as (x & Q & _ & D).
    exists x. split; [exact A|]. split; [exact Q|]. rewrite <- V1. eapply Rle_trans; [exact D|]. rewrite V1. cbn [length INR].
      assert (vlen (mkV3 5 0 80) <= 81) by (apply Rsqr_incr_0_var; [unfold Rsqr; rewrite vlen_sq; ru_spec; lra|lra]).
      assert (sqrt ((1 + 1) / (77 / 10000)) <= 100) by (rewrite <- (sqrt_square 100) by lra; apply sqrt_le_1_alt; lra). lra.
Qed.
End F64.
Print Assumptions C119_triangulation_f64.
Print Assumptions C119_own_pixels_f64.

(** C119: single precision, up to 1000 cameras with centers up to 20, focal lengths (scales)
    from 500, parameters and pixels up to 2000; [X] at depths of at most [Z]; lines of sight
    spread by at least n / 100, and by at least a tenth of n times the error of the pixels. *)
Section F32.
Variables fsin fcos : f64 -> f64.
Variables hsin hcos : f32 -> f32.
Local Hint Extern 0 (Ops f64) => exact (f64_ops fsin fcos) : typeclass_instances.
Local Hint Extern 0 (Ops f32) => exact (f32_ops hsin hcos) : typeclass_instances.
Local Hint Extern 0 (Ops (binary_float 24 128)) => exact (f32_ops hsin hcos) : typeclass_instances.
Local Notation u := (bpow radix2 (- (24))).
Theorem C119_triangulation_f32 Z eps X (rays : list (Ray WorldFrame f32)) truth lam :
  let n := INR (length rays) in
  1 <= Z -> 0 <= eps -> (2 <= length rays)%nat -> n <= 1000 ->
  Forall2 (fun r t => seen_persp u 20 2000 500 Z eps X r t \/ seen_ortho u 20 2000 500 Z eps X r t) rays truth ->
  n <= 100 * lam -> eps * n <= 10 * lam -> spread lam truth ->
  exists x', best_intersection_of_rays f32_to_f64 f64_to_f32 svd3_try_new rays = Some (Ok (mkPoints [x'])) /\ vec_finite x' /\
    vdist (vreal x') X <= sqrt (n / lam) * Z * (9 / 1000 * eps + 5 / 1000) + (n / lam) * (6 / 1000 + 11 / 10 ^ 6 * vlen X).
Proof. exact (C119b_lemma fsin fcos hsin hcos Z eps X rays truth lam). Qed.

(** ** Case: two such cameras in single precision, and the point (5,0,5) *)
Local Notation c32 := (ex_c32 hsin hcos).
Local Notation p32 := (ex_p32 hsin hcos).
Local Notation ray32 := (persp_ray (ex_kt32 hsin hcos) (ex_qi32 hsin hcos)).
Example C119_case32 : exists r1 r2 x, ray32 (c32 0%Z) (p32 512%Z) = Some r1 /\ ray32 (c32 10%Z) (p32 (-512)%Z) = Some r2 /\
  best_intersection_of_rays f32_to_f64 f64_to_f32 svd3_try_new [r1; r2] = Some (Ok (mkPoints [x])) /\ vdist (vreal x) (mkV3 5 0 5) <= 1 / 10.
Proof.
  destruct (ex_is_some (ray32 (c32 0%Z) (p32 512%Z))) as (r1 & E1); [vm_compute; reflexivity|].
  destruct (ex_is_some (ray32 (c32 10%Z) (p32 (-512)%Z))) as (r2 & E2); [vm_compute; reflexivity|].
  destruct (C119_triangulation_f32 5 (1 / 100) (mkV3 5 0 5) [r1; r2] [mkRay (mkV3 0 0 0) (vsub (mkV3 5 0 5) (mkV3 0 0 0)); mkRay (mkV3 10 0 0) (vsub (mkV3 5 0 5) (mkV3 10 0 0))] 1) as (x & Q & _ & D).
  - lra.
  - lra.
  - cbn. lia.
  - cbn. lra.
  - repeat apply Forall2_cons; try apply Forall2_nil; left; [exact (ex_seen32 hsin hcos 0 0 512 r1 ltac:(left; repeat split; reflexivity) E1)|exact (ex_seen32 hsin hcos 10 10 (-512) r2 ltac:(right; repeat split; reflexivity) E2)].
  - cbn. lra.
  - cbn. lra.
  - apply (C86b_lemma [] [] [] (mkRay (mkV3 0 0 0) _) (mkRay (mkV3 10 0 0) _) 1).
    + repeat apply Forall_cons; try apply Forall_nil; cbn [ray_direction]; intros E; apply V3_inv in E; ru_spec; lra.
    + unfold cosine. cbn [ray_direction].
      replace (vdot (vsub (mkV3 5 0 5) (mkV3 0 0 0)) (vsub (mkV3 5 0 5) (mkV3 10 0 0))) with 0 by (ru_spec; ring).
      unfold Rdiv. rewrite Rmult_0_l, Rabs_R0. lra.
    + lra.
  - exists r1, r2, x. split; [exact E1|]. split; [exact E2|]. split; [exact Q|]. eapply Rle_trans; [exact D|]. cbn [length INR].
    assert (vlen (mkV3 5 0 5) <= 8) by (apply Rsqr_incr_0_var; [unfold Rsqr; rewrite vlen_sq; ru_spec; lra|lra]).
    assert (sqrt ((1 + 1) / 1) <= 1.5) by (rewrite <- (sqrt_square 1.5) by lra; apply sqrt_le_1_alt; lra). lra.
Qed.
End F32.
Print Assumptions C119_triangulation_f32.
