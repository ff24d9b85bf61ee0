(** * PropFloatSvd10.v - property theorem C127: triangulation with cameras given by matrices *)

From Coq Require Import ZArith Reals List Bool Lra Lia.
From Flocq Require Import Core BinarySingleNaN.
From Verif Require Import Scalar Linalg Bundles Extrinsics Perspective Camera RayIntersection SymEigen Spec SpecGeom SpecIsect SpecTri
  SpecFloatErr SpecFloatIsect SpecFloatTri SpecFloatMat SpecFloatRQ SpecFloatTri4 RealBase VecLemmas TriProofs CamMatProofs FloatRQProofs8 FloatSvdProofs33.
Import ListNotations.
Local Open Scope R_scope.

Section F64.
Variables fsin fcos : f64 -> f64.
Local Hint Extern 0 (Ops f64) => exact (f64_ops fsin fcos) : typeclass_instances.
Local Hint Extern 0 (Ops (binary_float 53 1024)) => exact (f64_ops fsin fcos) : typeclass_instances.

(** C127: up to 1000 cameras given by matrices in double precision, a pixel of the same point
    in each, known up to [eps]; the cameras are read from the matrices, the pixels turned into
    rays, and the rays intersected, all in double precision. *)
Theorem C127_matrix_triangulation Z eps X (cams : list mcam) lam :
  1 <= Z -> 0 <= eps <= 10 -> (2 <= length cams)%nat -> INR (length cams) <= 1000 -> vlen X <= 10 -> Forall (good_mcam Z eps X) cams ->
  INR (length cams) <= 10 ^ 4 * lam -> eps * INR (length cams) <= 10 * lam ->
  spread lam (map (fun a => mkRay (Coords := WorldFrame) (mc_c a) (vsub X (mc_c a))) cams) ->
  exists rays, Forall2 (fun a r => mc_ray a = Some r) cams rays /\
    exists x', best_intersection_of_rays (fun x : f64 => Some x) (fun x : f64 => x) svd3_try_new rays = Some (Ok (mkPoints [x'])) /\ vec_finite x' /\
      vdist (vreal x') X <= sqrt (INR (length cams) / lam) * Z * (8 / 1000 * eps + 7 / 10 ^ 7) + 4 / 10 ^ 6 * (INR (length cams) / lam) * (1 + vlen X).
Proof. exact (C127_lemma fsin fcos Z eps X cams lam). Qed.

(** ** Case: cameras at the origin and at (10,0,0), the first with its matrix scaled by -2 and its pixel off by 1/2 *)
Local Notation lit m e := (@o_lit f64 _ m%Z e%Z).
Local Ltac val := cbv -[IZR Rdiv Rinv Rmult Ropp]; first [lra|field].
Definition ex_m1 : mcam := mkMcam
  (mkM34 (lit (-1024) 0) (lit 0 0) (lit 0 0) (lit 0 0) (lit 0 0) (lit (-1024) 0) (lit 0 0) (lit 0 0) (lit 0 0) (lit 0 0) (lit (-2) 0) (lit 0 0))
  (-2) 512 512 0 0 0 (mkQuat 0 0 0 1) (mkV3 0 0 0) (mkV2 (lit 1025 (-1)) (lit 0 0)).
Definition ex_m2 : mcam := mkMcam
  (mkM34 (lit 512 0) (lit 0 0) (lit 0 0) (lit (-5120) 0) (lit 0 0) (lit 512 0) (lit 0 0) (lit 0 0) (lit 0 0) (lit 0 0) (lit 1 0) (lit 0 0))
  1 512 512 0 0 0 (mkQuat 0 0 0 1) (mkV3 10 0 0) (mkV2 (lit (-512) 0) (lit 0 0)).
Local Ltac entry := try reflexivity; match goal with |- Rabs (B2R ?x - ?b) <= _ =>
  let H := fresh in assert (H : B2R x - b = 0) by val; rewrite H, Rabs_R0 end; apply Rmult_le_pos; [apply bpow_ge_0|apply Rabs_pos].
Local Ltac sz v := split; [reflexivity|]; match goal with |- _ <= Rabs ?x <= _ => let H := fresh in assert (H : x = v) by val; rewrite H end;
  first [rewrite Rabs_pos_eq; lra|rewrite Rabs_left; lra].
Example ex_good_m : Forall (good_mcam 5 (1 / 2) (mkV3 5 0 5)) [ex_m1; ex_m2].
Proof.
  assert (U : unit_quat (mkQuat 0 0 0 1)) by (unfold unit_quat, qnorm2; cbn; lra).
  assert (T1 : to_camera (mkQuat 0 0 0 1) (mkV3 0 0 0) (mkV3 5 0 5) = mkV3 5 0 5) by (apply V3_eq; ru_spec; lra).
  assert (T2 : to_camera (mkQuat 0 0 0 1) (mkV3 10 0 0) (mkV3 5 0 5) = mkV3 (-5) 0 5) by (apply V3_eq; ru_spec; lra).
  assert (L1 : vlen (mkV3 0 0 0) <= 10) by (apply Rsqr_incr_0_var; [unfold Rsqr; rewrite vlen_sq; ru_spec; lra|lra]).
  assert (L2 : vlen (mkV3 10 0 0) <= 10) by (apply Rsqr_incr_0_var; [unfold Rsqr; rewrite vlen_sq; ru_spec; lra|lra]).
  repeat apply Forall_cons; try apply Forall_nil; unfold good_mcam, mc_exact, ex_m1, ex_m2; cbn [mc_p mc_s mc_fx mc_fy mc_skew mc_cx mc_cy mc_q mc_c mc_px];
    rewrite hproject_scaled by (try (unfold depth; rewrite ?T1, ?T2; cbn [vz]); lra); unfold depth; rewrite ?T1, ?T2; cbn [vz].
  - split; [rewrite Rabs_left; lra|]. do 2 (split; [lra|]). rewrite Rabs_R0. do 3 (split; [lra|]). split; [exact U|]. split; [exact L1|].
    split; [unfold entries_near, near; repeat split; entry|]. split; [lra|]. cbn [px py]. split; [sz (1025 / 2)|]. split; [sz 0|].
    unfold pix_near, near, pixR. cbn [px py vx vy vz]. assert (H1 : B2R (lit 1025 (-1)) = 1025 / 2) by val. assert (H2 : B2R (lit 0 0) = 0) by val. rewrite H1, H2.
    repeat split; try reflexivity; apply Rabs_le; lra.
  - split; [rewrite Rabs_pos_eq; lra|]. do 2 (split; [lra|]). rewrite Rabs_R0. do 3 (split; [lra|]). split; [exact U|]. split; [exact L2|].
    split; [unfold entries_near, near; repeat split; entry|]. split; [lra|]. cbn [px py]. split; [sz (-512)|]. split; [sz 0|].
    unfold pix_near, near, pixR. cbn [px py vx vy vz]. assert (H1 : B2R (lit (-512) 0) = -512) by val. assert (H2 : B2R (lit 0 0) = 0) by val. rewrite H1, H2.
    repeat split; try reflexivity; apply Rabs_le; lra.
Qed.
Example C127_case : exists rays x, Forall2 (fun a r => mc_ray a = Some r) [ex_m1; ex_m2] rays /\
  best_intersection_of_rays (fun x : f64 => Some x) (fun x : f64 => x) svd3_try_new rays = Some (Ok (mkPoints [x])) /\
  vdist (vreal x) (mkV3 5 0 5) <= 4 / 100.
Proof.
  destruct (C127_matrix_triangulation 5 (1 / 2) (mkV3 5 0 5) [ex_m1; ex_m2] 1) as (rays & A & B).
  - lra.
  - lra.
  - cbn. lia.
  - cbn. lra.
  - apply Rsqr_incr_0_var; [unfold Rsqr; rewrite vlen_sq; ru_spec; lra|lra].
  - apply ex_good_m.
  - cbn. lra.
  - cbn. lra.
  - cbn [map ex_m1 ex_m2 mc_c]. apply (C86b_lemma [] [] [] (mkRay (mkV3 0 0 0) _) (mkRay (mkV3 10 0 0) _) 1).
    + repeat apply Forall_cons; try apply Forall_nil; cbn [ray_direction]; intros E; apply V3_inv in E; ru_spec; lra.
    + unfold cosine. cbn [ray_direction].
      replace (vdot (vsub (mkV3 5 0 5) (mkV3 0 0 0)) (vsub (mkV3 5 0 5) (mkV3 10 0 0))) with 0 by (ru_spec; ring).
      unfold Rdiv. rewrite Rmult_0_l, Rabs_R0. lra.
    + lra.
  - exists rays. destruct B as (x & Q & _ & D). exists x. split; [exact A|]. split; [exact Q|]. eapply Rle_trans; [exact D|]. cbn [length INR].
    assert (vlen (mkV3 5 0 5) <= 8) by (apply Rsqr_incr_0_var; [unfold Rsqr; rewrite vlen_sq; ru_spec; lra|lra]).
    assert (sqrt ((1 + 1) / 1) <= 1.5) by (rewrite <- (sqrt_square 1.5) by lra; apply sqrt_le_1_alt; lra). lra.
Qed.
End F64.
Print Assumptions C127_matrix_triangulation.
