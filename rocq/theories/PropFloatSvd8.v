(** * PropFloatSvd8.v - property theorem C125: triangulation in single precision from the program's own pixels *)

From Coq Require Import ZArith Reals List Bool Lra Lia.
From Flocq Require Import Core BinarySingleNaN.
From Verif Require Import Scalar Linalg Bundles Extrinsics Perspective Orthographic Camera RayIntersection SymEigen Spec SpecGeom SpecIsect SpecTri
  SpecFloatErr SpecFloatIsect SpecFloatTri SpecFloatTri3 RealBase VecLemmas TriProofs Convert FloatSvdProofs31 PropFloatTri PropFloatIsect PropFloatSvd4.
Import ListNotations.
Local Open Scope R_scope.

Section F32.
Variables fsin fcos : f64 -> f64.
Variables hsin hcos : f32 -> f32.
Local Hint Extern 0 (Ops f64) => exact (f64_ops fsin fcos) : typeclass_instances.
Local Hint Extern 0 (Ops f32) => exact (f32_ops hsin hcos) : typeclass_instances.
Local Hint Extern 0 (Ops (binary_float 24 128)) => exact (f32_ops hsin hcos) : typeclass_instances.
Local Notation u := (bpow radix2 (- (24))).
Local Notation cam a := (camera_new (perspective_from (fc_k a)) (from_rotation_and_camcenter (fc_qh a) (fc_c a))).

(** C125: a point of size up to 20, at depths between [d] and [Z] of up to 1000 cameras,
    projected in single precision into the cameras and triangulated in single precision
    from these pixels (the intersection converts to double precision and back). *)
Theorem C125_own_pixels_f32 d Z X (cams : list (fcam 24 128)) lam : 1 <= d -> d <= Z ->
  (2 <= length cams)%nat -> INR (length cams) <= 1000 -> vec_sized 20 X -> Forall (good_cam32 d Z X) cams ->
  INR (length cams) <= 100 * lam -> INR (length cams) <= 1.6 * d * lam ->
  spread lam (map (fun a => mkRay (Coords := WorldFrame) (vreal (fc_c a)) (vsub (vreal X) (vreal (fc_c a)))) cams) ->
  exists rays,
    Forall2 (fun a r => (p <- world_to_pixel (cam a) (mkPoints [X]) ;; rb <- pixel_to_world (cam a) p ;;
                         @to_single_ray f32 _ _ SharedOrigin_Bundle rb) = Some r) cams rays /\
    exists x', best_intersection_of_rays f32_to_f64 f64_to_f32 svd3_try_new rays = Some (Ok (mkPoints [x'])) /\ vec_finite x' /\
      vdist (vreal x') (vreal X) <= sqrt (INR (length cams) / lam) * Z * (6 / 100 / d + 5 / 1000) +
        (INR (length cams) / lam) * (6 / 1000 + 11 / 10 ^ 6 * vlen (vreal X)).
Proof. exact (C125_lemma fsin fcos hsin hcos d Z X cams lam). Qed.

(** ** Case: two cameras at the origin and at (10,0,0), and the point (5,0,5) *)
Local Notation lit m e := (@o_lit f32 _ m%Z e%Z).
Local Ltac val := cbv -[IZR Rdiv Rinv Rmult Ropp]; first [lra|field].
Local Ltac size v := split; [reflexivity|];
  match goal with |- _ <= Rabs ?x <= _ => let H := fresh in assert (H : x = v) by val; rewrite H end;
  first [rewrite Rabs_pos_eq; lra|rewrite Rabs_left; lra].
Definition ex_X5 : V3 f32 := mkV3 (lit 5 0) (lit 0 0) (lit 5 0).
Definition ex_fc32 (z : Z) : fcam 24 128 := mkFcam 24 128 (ex_kt32 hsin hcos) (ex_qi32 hsin hcos) (mkQuat 0 0 0 1) (ex_c32 hsin hcos z).
Example ex_good32 : Forall (good_cam32 5 5 ex_X5) [ex_fc32 0; ex_fc32 10].
Proof.
  assert (B : u = / 16777216) by (simpl; lra).
  assert (Z : B2R (lit 0 0) = 0) by val. assert (Z1 : B2R (lit 1 0) = 1) by val. assert (A : B2R (lit 512 0) = 512) by val.
  assert (V1 : vreal ex_X5 = mkV3 5 0 5) by (unfold vreal, ex_X5; f_equal; val).
  assert (V2 : vreal (ex_c32 hsin hcos 0) = mkV3 0 0 0) by (unfold vreal, ex_c32; f_equal; val).
  assert (V3 : vreal (ex_c32 hsin hcos 10) = mkV3 10 0 0) by (unfold vreal, ex_c32; f_equal; val).
  assert (U : unit_quat (mkQuat 0 0 0 1)) by (unfold unit_quat, qnorm2; cbn; lra).
  assert (N : quat_near (8 * u) (ex_qi32 hsin hcos) (mkQuat 0 0 0 1)).
  { unfold quat_near, near, ex_qi32. cbn [qi qj qk qw]. rewrite Z, Z1. repeat split; try reflexivity; apply Rabs_le; lra. }
  assert (T1 : to_camera (mkQuat 0 0 0 1) (mkV3 0 0 0) (mkV3 5 0 5) = mkV3 5 0 5) by (apply V3_eq; ru_spec; lra).
  assert (T2 : to_camera (mkQuat 0 0 0 1) (mkV3 10 0 0) (mkV3 5 0 5) = mkV3 (-5) 0 5) by (apply V3_eq; ru_spec; lra).
  repeat apply Forall_cons; try apply Forall_nil; unfold good_cam32, ex_fc32; cbn [fc_k fc_qh fc_q fc_c];
    (split; [exact U|]); (split; [exact N|]); rewrite ?V1, ?V2, ?V3; unfold depth; rewrite ?T1, ?T2.
  - split; [split; [size 0|split; [size 0|size 0]]|]. split; [size 512|]. split; [size 512|]. split; [size 0|]. split; [size 0|]. split; [size 0|].
    split; [cbn [vz]; lra|]. unfold pinhole, ex_kt32. cbn [pp_fx pp_fy pp_skew pp_cx pp_cy vx vy vz]. rewrite A, Z. split; cbn [px py].
    + replace ((512 * 5 + 0 * 0) / 5 + 0) with 512 by field. rewrite Rabs_pos_eq; lra.
    + replace (512 * 0 / 5 + 0) with 0 by field. rewrite Rabs_R0; lra.
  - split; [split; [size 10|split; [size 0|size 0]]|]. split; [size 512|]. split; [size 512|]. split; [size 0|]. split; [size 0|]. split; [size 0|].
    split; [cbn [vz]; lra|]. unfold pinhole, ex_kt32. cbn [pp_fx pp_fy pp_skew pp_cx pp_cy vx vy vz]. rewrite A, Z. split; cbn [px py].
    + replace ((512 * -5 + 0 * 0) / 5 + 0) with (-512) by field. rewrite Rabs_left; lra.
    + replace (512 * 0 / 5 + 0) with 0 by field. rewrite Rabs_R0; lra.
Qed.
Example C125_case : exists rays x,
  Forall2 (fun a r => (p <- world_to_pixel (cam a) (mkPoints [ex_X5]) ;; rb <- pixel_to_world (cam a) p ;;
                       @to_single_ray f32 _ _ SharedOrigin_Bundle rb) = Some r) [ex_fc32 0; ex_fc32 10] rays /\
  best_intersection_of_rays f32_to_f64 f64_to_f32 svd3_try_new rays = Some (Ok (mkPoints [x])) /\
  vdist (vreal x) (mkV3 5 0 5) <= 1 / 5.
Proof.
  assert (V1 : vreal ex_X5 = mkV3 5 0 5) by (unfold vreal, ex_X5; f_equal; val).
  assert (V2 : vreal (fc_c (ex_fc32 0)) = mkV3 0 0 0) by (unfold vreal, ex_fc32, ex_c32; cbn [fc_c]; f_equal; val).
  assert (V3 : vreal (fc_c (ex_fc32 10)) = mkV3 10 0 0) by (unfold vreal, ex_fc32, ex_c32; cbn [fc_c]; f_equal; val).
  destruct (C125_own_pixels_f32 5 5 ex_X5 [ex_fc32 0; ex_fc32 10] 1) as (rays & A & B).
  - lra.
  - lra.
  - cbn. lia.
  - cbn. lra.
  - split; [size 5|split; [size 0|size 5]].
  - apply ex_good32.
  - cbn. lra.
  - cbn. lra.
  - cbn [map]. rewrite V1, V2, V3. apply (C86b_lemma [] [] [] (mkRay (mkV3 0 0 0) _) (mkRay (mkV3 10 0 0) _) 1).
    + repeat apply Forall_cons; try apply Forall_nil; cbn [ray_direction]; intros E; apply V3_inv in E; ru_spec; lra.
    + unfold cosine. cbn [ray_direction].
      replace (vdot (vsub (mkV3 5 0 5) (mkV3 0 0 0)) (vsub (mkV3 5 0 5) (mkV3 10 0 0))) with 0 by (ru_spec; ring).
      unfold Rdiv. rewrite Rmult_0_l, Rabs_R0. lra.
    + lra.
  - exists rays. destruct B as (x & Q & _ & D).
    exists x. split; [exact A|]. split; [exact Q|]. rewrite <- V1. eapply Rle_trans; [exact D|]. rewrite V1. cbn [length INR].
      assert (vlen (mkV3 5 0 5) <= 8) by (apply Rsqr_incr_0_var; [unfold Rsqr; rewrite vlen_sq; ru_spec; lra|lra]).
      assert (sqrt ((1 + 1) / 1) <= 1.5) by (rewrite <- (sqrt_square 1.5) by lra; apply sqrt_le_1_alt; lra). lra.
Qed.
End F32.
Print Assumptions C125_own_pixels_f32.
