(** * PropFloatSvd2.v - property theorem C112: triangulation from pixels in IEEE arithmetic with the program's own decomposition *)

From Coq Require Import ZArith Reals List Bool Lra Lia.
From Flocq Require Import Core BinarySingleNaN.
From Verif Require Import Scalar Linalg Bundles Extrinsics Perspective Orthographic Camera RayIntersection SymEigen Spec SpecGeom SpecIsect SpecTri
  SpecFloatErr SpecFloatIsect SpecFloatTri RealBase VecLemmas TriProofs FloatSvdProofs16 PropFloatTri PropFloatIsect.
Import ListNotations.
Local Open Scope R_scope.

(** C112: C104 with the modelled decomposition in place of the oracle: [n] cameras report
    [X] at pixels off by at most [eps]; the true lines of sight are spread by [lam]. *)
Section IEEE.
Variables (prec emax : Z) (Hp : Prec_gt_0 prec) (He : Prec_lt_emax prec emax).
Variables fsin fcos : binary_float prec emax -> binary_float prec emax.
Variables gsin gcos : f64 -> f64.
Local Notation F := (binary_float prec emax).
Local Hint Extern 0 (Ops (binary_float prec emax)) =>
  exact (B_ops prec emax Hp He fsin fcos) : typeclass_instances.
Local Hint Extern 0 (Ops (binary_float 53 1024)) => exact (f64_ops gsin gcos) : typeclass_instances.
Local Notation u := (bpow radix2 (- prec)).
Local Notation v := (bpow radix2 (- (53))).
Local Notation big := (bpow radix2 emax).

Theorem C112_triangulation_error (E : Z) to64 from64 w M P f Z eps X (rays : list (Ray WorldFrame F)) truth om lam :
  (24 <= prec <= 53)%Z -> (emax <= 1024)%Z -> (0 <= E)%Z -> (2 * E + 34 <= emax)%Z ->
  exact_to64 to64 -> rounds_from64 from64 -> u <= w <= / 2048 ->
  1 <= M -> 1 <= P -> 512 * P * M < big -> 0 < f -> 5 * P <= M * f -> 1 <= Z -> 0 <= eps ->
  let n := INR (length rays) in
  n * (4 * M) <= bpow radix2 E -> n <= 2 ^ 36 -> (2 <= length rays)%nat ->
  Forall2 (fun r t => seen_persp w M P f Z eps X r t \/ seen_ortho w M P f Z eps X r t) rays truth -> spread lam truth ->
  u <= om -> om <= / 16000000 -> 1 / 10 ^ 11 <= om ->
  let s := 3.5 * ((eps + 13.2 * w * P) / f) + 530 * w * M in
  let mu := lam - 2 * s * n in
  let eta := 3 / 10 ^ 6 * (n / mu) * n + 3 * n * (25 * u + (n + 1) * v) in
  0 < mu -> n <= 250 * mu -> eta < mu ->
  let best := best_intersection_of_rays to64 from64 svd3_try_new rays in
  best <> Some (Err SvdFailed) ->
  let e := (2600 * w * M + Z * s) * sqrt (n / mu) in
  exists x', best = Some (Ok (mkPoints [x'])) /\ vec_finite x' /\
    vdist (vreal x') X <= e + (eta * (vlen X + e) + n * (4 * M) * (810 * om + 6 * (n + 1) * v)) / (mu - eta).
Proof. exact (C112_lemma prec emax Hp He fsin fcos gsin gcos E to64 from64 w M P f Z eps X rays truth om lam). Qed.
End IEEE.
Print Assumptions C112_triangulation_error.

Section F64.
Variables fsin fcos : f64 -> f64.
Local Hint Extern 0 (Ops f64) => exact (f64_ops fsin fcos) : typeclass_instances.
Local Hint Extern 0 (Ops (binary_float 53 1024)) => exact (f64_ops fsin fcos) : typeclass_instances.
Local Notation u := (bpow radix2 (- (53))).

(** C112: double precision, up to 1000 cameras with centers up to 100, focal lengths (scales)
    from 500, parameters and pixels up to 10000; [X] at depths of at most [Z]; pixels off
    by at most 1/10; lines of sight spread by at least n / 50. *)
Theorem C112_triangulation_f64 Z eps X (rays : list (Ray WorldFrame f64)) truth lam :
  let n := INR (length rays) in
  1 <= Z -> 0 <= eps <= 1 / 10 -> (2 <= length rays)%nat -> n <= 1000 ->
  Forall2 (fun r t => seen_persp u 100 10000 500 Z eps X r t \/ seen_ortho u 100 10000 500 Z eps X r t) rays truth ->
  n <= 50 * lam -> spread lam truth ->
  let best := best_intersection_of_rays (fun x : f64 => Some x) (fun x : f64 => x) svd3_try_new rays in
  best <> Some (Err SvdFailed) ->
  exists x', best = Some (Ok (mkPoints [x'])) /\ vec_finite x' /\
    vdist (vreal x') X <= 6 / 100 * Z * eps + 1 / 10 ^ 8 * Z + 4 / 10 ^ 6 * (n / lam) + 4 / 10 ^ 6 * (n / lam) ^ 2 * vlen X.
Proof. exact (C112b_lemma fsin fcos Z eps X rays truth lam). Qed.

(** C112: a point projected by the program into several cameras and triangulated by the
    program from these pixels. *)
Local Notation cam a := (camera_new (perspective_from (fc_k a)) (from_rotation_and_camcenter (fc_qh a) (fc_c a))).
Theorem C112_own_pixels_f64 X (cams : list (fcam 53 1024)) lam : (2 <= length cams)%nat -> INR (length cams) <= 1000 -> vec_sized 100 X ->
  Forall (good_cam X) cams -> INR (length cams) <= 50 * lam ->
  spread lam (map (fun a => mkRay (Coords := WorldFrame) (vreal (fc_c a)) (vsub (vreal X) (vreal (fc_c a)))) cams) ->
  exists rays,
    Forall2 (fun a r => (p <- world_to_pixel (cam a) (mkPoints [X]) ;; rb <- pixel_to_world (cam a) p ;;
                         @to_single_ray f64 _ _ SharedOrigin_Bundle rb) = Some r) cams rays /\
    (best_intersection_of_rays (fun x : f64 => Some x) (fun x : f64 => x) svd3_try_new rays <> Some (Err SvdFailed) ->
    exists x', best_intersection_of_rays (fun x : f64 => Some x) (fun x : f64 => x) svd3_try_new rays = Some (Ok (mkPoints [x'])) /\ vec_finite x' /\
      vdist (vreal x') (vreal X) <= 1 / 10 ^ 5 + 4 / 10 ^ 6 * (INR (length cams) / lam) + 4 / 10 ^ 6 * (INR (length cams) / lam) ^ 2 * vlen (vreal X)).
Proof. exact (C112c_lemma fsin fcos X cams lam). Qed.

(** ** Case: two cameras at the origin and at (10,0,0), and the point (5,0,5) *)
Local Ltac val := cbv -[IZR Rdiv Rinv Rmult Ropp]; first [lra|field].
Local Ltac size v := split; [reflexivity|];
  match goal with |- _ <= Rabs ?x <= _ => let H := fresh in assert (H : x = v) by val; rewrite H end;
  first [rewrite Rabs_pos_eq; lra|rewrite Rabs_left; lra].
Local Notation fc1 := (ex_fc1 fsin fcos).
Local Notation fc2 := (ex_fc2 fsin fcos).
Local Notation pX := (ex_X fsin fcos).
Example ex_not_failed2 o1 o2 (r1 r2 : Ray WorldFrame f64) : o1 = Some r1 -> o2 = Some r2 ->
  ex_ok (match o1, o2 with Some r1, Some r2 => best_intersection_of_rays (fun x : f64 => Some x) (fun x : f64 => x) svd3_try_new [r1; r2] | _, _ => None end) = true ->
  best_intersection_of_rays (fun x : f64 => Some x) (fun x : f64 => x) svd3_try_new [r1; r2] <> Some (Err SvdFailed).
Proof. intros -> -> G Q. rewrite Q in G. discriminate. Qed.
Example C112_case : exists rays x,
  Forall2 (fun a r => (p <- world_to_pixel (cam a) (mkPoints [pX]) ;; rb <- pixel_to_world (cam a) p ;;
                       @to_single_ray f64 _ _ SharedOrigin_Bundle rb) = Some r) [fc1; fc2] rays /\
  best_intersection_of_rays (fun x : f64 => Some x) (fun x : f64 => x) svd3_try_new rays = Some (Ok (mkPoints [x])) /\
  vdist (vreal x) (mkV3 5 0 5) <= 1 / 1000.
Proof.
  assert (V1 : vreal pX = mkV3 5 0 5) by (unfold vreal, ex_X; f_equal; val).
  assert (V2 : vreal (fc_c fc1) = mkV3 0 0 0) by (unfold vreal, ex_fc1; cbn [fc_c]; f_equal; val).
  assert (V3 : vreal (fc_c fc2) = mkV3 10 0 0) by (unfold vreal, ex_fc2; cbn [fc_c]; f_equal; val).
  destruct (C112_own_pixels_f64 pX [fc1; fc2] 1) as (rays & A & B).
  - cbn. lia.
  - cbn. lra.
  - split; [size 5|split; [size 0|size 5]].
  - apply ex_good.
  - cbn. lra.
  - cbn [map]. rewrite V1, V2, V3. apply (C86b_lemma [] [] [] (mkRay (mkV3 0 0 0) _) (mkRay (mkV3 10 0 0) _) 1).
    + repeat apply Forall_cons; try apply Forall_nil; cbn [ray_direction]; intros E; apply V3_inv in E; ru_spec; lra.
    + unfold cosine. cbn [ray_direction].
      replace (vdot (vsub (mkV3 5 0 5) (mkV3 0 0 0)) (vsub (mkV3 5 0 5) (mkV3 10 0 0))) with 0 by (ru_spec; ring).
      unfold Rdiv. rewrite Rmult_0_l, Rabs_R0. lra.
    + lra.
  - exists rays. inversion A as [|? r1 ? ? E1 A']; subst. inversion A' as [|? r2 ? ? E2 A'']; subst. inversion A''; subst.
    destruct B as (x & Q & _ & D).
    + refine (ex_not_failed2 _ _ r1 r2 E1 E2 _). vm_compute. reflexivity.
    + exists x. split; [exact A|]. split; [exact Q|]. rewrite <- V1. eapply Rle_trans; [exact D|]. rewrite V1. cbn [length INR].
      assert (vlen (mkV3 5 0 5) <= 8) by (apply Rsqr_incr_0_var; [unfold Rsqr; rewrite vlen_sq; ru_spec; lra|lra]). lra.
Qed.
End F64.
Print Assumptions C112_triangulation_f64.
Print Assumptions C112_own_pixels_f64.
