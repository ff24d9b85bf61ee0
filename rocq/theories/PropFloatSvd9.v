(** * PropFloatSvd9.v - property theorem C126: triangulation from the program's own pixels in cameras of both kinds *)

From Coq Require Import ZArith Reals List Bool Lra Lia.
From Flocq Require Import Core BinarySingleNaN.
From Verif Require Import Scalar Linalg Bundles Extrinsics Perspective Orthographic Camera RayIntersection SymEigen Spec SpecGeom SpecIsect SpecTri
  SpecFloatErr SpecFloatIsect SpecFloatTri SpecFloatTri3 RealBase VecLemmas TriProofs FloatSvdProofs32 PropFloatTri PropFloatIsect.
Import ListNotations.
Local Open Scope R_scope.

Section F64.
Variables fsin fcos : f64 -> f64.
Local Hint Extern 0 (Ops f64) => exact (f64_ops fsin fcos) : typeclass_instances.
Local Hint Extern 0 (Ops (binary_float 53 1024)) => exact (f64_ops fsin fcos) : typeclass_instances.
Local Notation u := (bpow radix2 (- (53))).

(** C126: a point projected by the program in double precision into up to 1000 cameras,
    each perspective or orthographic, and triangulated by the program from these pixels. *)
Theorem C126_own_pixels_both_kinds X (cams : list (fcam 53 1024 + focam 53 1024)) lam :
  (2 <= length cams)%nat -> INR (length cams) <= 1000 -> vec_sized 100 X ->
  Forall (good_any X) cams -> INR (length cams) <= 10 ^ 4 * lam -> spread lam (map (true_line (vreal X)) cams) ->
  exists rays, Forall2 (fun a r => own_ray X a = Some r) cams rays /\
    exists x', best_intersection_of_rays (fun x : f64 => Some x) (fun x : f64 => x) svd3_try_new rays = Some (Ok (mkPoints [x'])) /\ vec_finite x' /\
      vdist (vreal x') (vreal X) <= 1 / 10 ^ 6 * sqrt (INR (length cams) / lam) + 4 / 10 ^ 6 * (INR (length cams) / lam) * (1 + vlen (vreal X)).
Proof. exact (C126_lemma fsin fcos X cams lam). Qed.

(** ** Case: a perspective camera at the origin, an orthographic one at (10,0,0), and the point (5,0,5) *)
Local Notation lit m e := (@o_lit f64 _ m%Z e%Z).
Local Ltac val := cbv -[IZR Rdiv Rinv Rmult Ropp]; first [lra|field].
Local Ltac size v := split; [reflexivity|];
  match goal with |- _ <= Rabs ?x <= _ => let H := fresh in assert (H : x = v) by val; rewrite H end;
  first [rewrite Rabs_pos_eq; lra|rewrite Rabs_left; lra].
Local Notation fc1 := (ex_fc1 fsin fcos).
Local Notation X5 := (ex_X fsin fcos).
Definition ex_kq : OrthographicParams f64 := mkOP (lit 512 0) (lit 512 0) (lit 0 0) (lit 0 0).
Definition ex_fo : focam 53 1024 := mkFocam 53 1024 ex_kq (ex_qi fsin fcos) (mkQuat 0 0 0 1) (mkV3 (lit 10 0) (lit 0 0) (lit 0 0)).
Example ex_good_any : Forall (good_any X5) [inl fc1; inr ex_fo].
Proof.
  assert (Z : B2R (lit 0 0) = 0) by val. assert (A : B2R (lit 512 0) = 512) by val.
  assert (V1 : vreal X5 = mkV3 5 0 5) by (unfold vreal, ex_X; f_equal; val).
  assert (V3 : vreal (mkV3 (lit 10 0) (lit 0 0) (lit 0 0)) = mkV3 10 0 0) by (unfold vreal; f_equal; val).
  assert (U : unit_quat (mkQuat 0 0 0 1)) by (unfold unit_quat, qnorm2; cbn; lra).
  assert (T2 : to_camera (mkQuat 0 0 0 1) (mkV3 10 0 0) (mkV3 5 0 5) = mkV3 (-5) 0 5) by (apply V3_eq; ru_spec; lra).
  pose proof (ex_good fsin fcos) as G. inversion G as [|? ? G1 _]; subst.
  repeat apply Forall_cons; try apply Forall_nil; [exact G1|].
  unfold good_any, good_ortho, ex_fo; cbn [fo_k fo_qh fo_q fo_c].
  split; [exact U|]. split; [apply ex_qi_near|]. rewrite V1, V3, T2.
  split; [split; [size 10|split; [size 0|size 0]]|]. split; [size 512|]. split; [size 512|]. split; [size 0|]. split; [size 0|].
  unfold parallel_pixel, ex_kq. cbn [op_sx op_sy op_cx op_cy vx vy vz]. rewrite A, Z. split; cbn [px py].
  - replace (512 * -5 + 0) with (-2560) by ring. rewrite Rabs_left; lra.
  - replace (512 * 0 + 0) with 0 by ring. rewrite Rabs_R0; lra.
Qed.
Example C126_case : exists rays x,
  Forall2 (fun a r => own_ray X5 a = Some r) [inl fc1; inr ex_fo] rays /\
  best_intersection_of_rays (fun x : f64 => Some x) (fun x : f64 => x) svd3_try_new rays = Some (Ok (mkPoints [x])) /\
  vdist (vreal x) (mkV3 5 0 5) <= 1 / 1000.
Proof.
  assert (V1 : vreal X5 = mkV3 5 0 5) by (unfold vreal, ex_X; f_equal; val).
  assert (V2 : vreal (fc_c fc1) = mkV3 0 0 0) by (unfold vreal, ex_fc1; cbn [fc_c]; f_equal; val).
  assert (V3 : mv (mtr (rotm (fo_q ex_fo))) (mkV3 0 0 1) = mkV3 0 0 1) by (apply V3_eq; unfold ex_fo; cbn [fo_q]; ru_spec; lra).
  destruct (C126_own_pixels_both_kinds X5 [inl fc1; inr ex_fo] (1 / 4)) as (rays & A & B).
  - cbn. lia.
  - cbn. lra.
  - split; [size 5|split; [size 0|size 5]].
  - apply ex_good_any.
  - cbn. lra.
  - cbn [map true_line]. rewrite V1, V2, V3. apply (C86b_lemma [] [] [] (mkRay (mkV3 0 0 0) _) (mkRay (mkV3 5 0 5) _) (1 / 4)).
    + repeat apply Forall_cons; try apply Forall_nil; cbn [ray_direction]; intros E; apply V3_inv in E; ru_spec; lra.
    + unfold cosine. cbn [ray_direction].
      replace (vdot (vsub (mkV3 5 0 5) (mkV3 0 0 0)) (mkV3 0 0 1)) with 5 by (ru_spec; ring).
      assert (L1 : vlen (vsub (mkV3 5 0 5) (mkV3 0 0 0)) = sqrt 50) by (unfold vlen; f_equal; ru_spec; ring).
      assert (L2 : vlen (mkV3 0 0 1) = 1) by (apply vlen_1; ru_spec; ring).
      rewrite L1, L2, Rmult_1_r. assert (S : 7 <= sqrt 50) by (rewrite <- (sqrt_square 7) by lra; apply sqrt_le_1_alt; lra).
      assert (I : 0 < / sqrt 50) by (apply Rinv_0_lt_compat; lra). assert (I' : / sqrt 50 <= / 7) by (apply Rinv_le_contravar; lra).
      unfold Rdiv. rewrite Rabs_pos_eq by lra. lra.
    + lra.
  - exists rays. destruct B as (x & Q & _ & D).
    exists x. split; [exact A|]. split; [exact Q|]. rewrite <- V1. eapply Rle_trans; [exact D|]. rewrite V1. cbn [length INR].
      assert (vlen (mkV3 5 0 5) <= 8) by (apply Rsqr_incr_0_var; [unfold Rsqr; rewrite vlen_sq; ru_spec; lra|lra]).
      assert (sqrt ((1 + 1) / (1 / 4)) <= 3) by (rewrite <- (sqrt_square 3) by lra; apply sqrt_le_1_alt; lra). lra.
Qed.
End F64.
Print Assumptions C126_own_pixels_both_kinds.
