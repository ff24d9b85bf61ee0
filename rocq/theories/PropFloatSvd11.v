(** * PropFloatSvd11.v - property theorem C128: two lines of sight at an angle, cameras given by matrices *)

From Coq Require Import ZArith Reals List Bool Lra Lia.
From Flocq Require Import Core BinarySingleNaN.
From Verif Require Import Scalar Linalg Bundles Extrinsics Perspective Camera RayIntersection SymEigen Spec SpecGeom SpecIsect SpecTri
  SpecFloatErr SpecFloatIsect SpecFloatTri SpecFloatMat SpecFloatRQ SpecFloatTri4 RealBase VecLemmas TriProofs CamMatProofs FloatRQProofs8 FloatSvdProofs34 PropFloatSvd10.
Import ListNotations.
Local Open Scope R_scope.

Section F64.
Variables fsin fcos : f64 -> f64.
Local Hint Extern 0 (Ops f64) => exact (f64_ops fsin fcos) : typeclass_instances.
Local Hint Extern 0 (Ops (binary_float 53 1024)) => exact (f64_ops fsin fcos) : typeclass_instances.

(** C128: as C127, with the angle between the lines of sight of two of the cameras, wherever they
    stand in the list, in place of the spread of all. *)
Theorem C128_angle_suffices Z eps X (l1 l2 l3 : list mcam) a b lam : let cams := l1 ++ a :: l2 ++ b :: l3 in
  1 <= Z -> 0 <= eps <= 10 -> INR (length cams) <= 1000 -> vlen X <= 10 -> Forall (good_mcam Z eps X) cams ->
  INR (length cams) <= 10 ^ 4 * lam -> eps * INR (length cams) <= 10 * lam ->
  Rabs (cosine (vsub X (mc_c a)) (vsub X (mc_c b))) <= 1 - lam ->
  exists rays, Forall2 (fun a r => mc_ray a = Some r) cams rays /\
    exists x', best_intersection_of_rays (fun x : f64 => Some x) (fun x : f64 => x) svd3_try_new rays = Some (Ok (mkPoints [x'])) /\ vec_finite x' /\
      vdist (vreal x') X <= sqrt (INR (length cams) / lam) * Z * (8 / 1000 * eps + 7 / 10 ^ 7) + 4 / 10 ^ 6 * (INR (length cams) / lam) * (1 + vlen X).
Proof. exact (C128_lemma fsin fcos Z eps X l1 l2 l3 a b lam). Qed.

(** ** Case: the two cameras of C127_case, the first one twice *)
Example C128_case : exists rays x, Forall2 (fun a r => mc_ray a = Some r) [ex_m1 fsin fcos; ex_m1 fsin fcos; ex_m2 fsin fcos] rays /\
  best_intersection_of_rays (fun x : f64 => Some x) (fun x : f64 => x) svd3_try_new rays = Some (Ok (mkPoints [x])) /\
  vdist (vreal x) (mkV3 5 0 5) <= 5 / 100.
Proof.
  assert (V : vlen (mkV3 5 0 5) <= 8) by (apply Rsqr_incr_0_var; [unfold Rsqr; rewrite vlen_sq; ru_spec; lra|lra]).
  destruct (C128_angle_suffices 5 (1 / 2) (mkV3 5 0 5) [] [ex_m1 fsin fcos] [] (ex_m1 fsin fcos) (ex_m2 fsin fcos) 1) as (rays & A & B).
  - lra.
  - lra.
  - cbn. lra.
  - lra.
  - pose proof (ex_good_m fsin fcos) as G. inversion G as [|? ? G1 G2]; subst. cbn [app]. constructor; [exact G1|exact G].
  - cbn. lra.
  - cbn. lra.
  - unfold cosine. cbn [ex_m1 ex_m2 mc_c].
    replace (vdot (vsub (mkV3 5 0 5) (mkV3 0 0 0)) (vsub (mkV3 5 0 5) (mkV3 10 0 0))) with 0 by (ru_spec; ring).
    unfold Rdiv. rewrite Rmult_0_l, Rabs_R0. lra.
  - exists rays. destruct B as (x & Q & _ & D). exists x. split; [exact A|]. split; [exact Q|]. eapply Rle_trans; [exact D|]. cbn [length app INR].
    assert (sqrt ((1 + 1 + 1) / 1) <= 1.75) by (rewrite <- (sqrt_square 1.75) by lra; apply sqrt_le_1_alt; lra). lra.
Qed.
End F64.
Print Assumptions C128_angle_suffices.
