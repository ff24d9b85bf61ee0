(** * FloatSvdProofs34.v - triangulation with matrices when two lines of sight make an angle (C128) *)

From Coq Require Import ZArith Reals List Lra Lia.
From Flocq Require Import Core BinarySingleNaN.
From Verif Require Import Scalar Linalg Bundles RayIntersection SymEigen Spec SpecGeom SpecIsect SpecTri SpecFloatErr SpecFloatIsect SpecFloatTri4 RealBase VecLemmas TriProofs FloatTriProofs FloatApprox FloatSvdProofs33.
Import ListNotations.
Local Open Scope R_scope.

Section F64.
Variables fsin fcos : f64 -> f64.
Local Hint Extern 0 (Ops f64) => exact (f64_ops fsin fcos) : typeclass_instances.
Local Hint Extern 0 (Ops (binary_float 53 1024)) => exact (f64_ops fsin fcos) : typeclass_instances.

Lemma good_mcam_apart Z eps X a : good_mcam Z eps X a -> vsub X (mc_c a) <> vO.
Proof.
  intros (_ & _ & _ & _ & _ & _ & _ & _ & _ & (D & _) & _) E. unfold depth, to_camera in D. rewrite E in D.
  replace (vz (mv (rotm (mc_q a)) vO)) with 0 in D by (ru_spec; ring). lra.
Qed.

Lemma C128_lemma Z eps X (l1 l2 l3 : list mcam) a b lam : let cams := l1 ++ a :: l2 ++ b :: l3 in let n := INR (length cams) in
  1 <= Z -> 0 <= eps <= 10 -> n <= 1000 -> vlen X <= 10 -> Forall (good_mcam Z eps X) cams ->
  n <= 10 ^ 4 * lam -> eps * n <= 10 * lam ->
  Rabs (cosine (vsub X (mc_c a)) (vsub X (mc_c b))) <= 1 - lam ->
  exists rays, Forall2 (fun a r => mc_ray a = Some r) cams rays /\
    exists x', best_intersection_of_rays (fun x : f64 => Some x) (fun x : f64 => x) svd3_try_new rays = Some (Ok (mkPoints [x'])) /\ vec_finite x' /\
      vdist (vreal x') X <= sqrt (n / lam) * Z * (8 / 1000 * eps + 7 / 10 ^ 7) + 4 / 10 ^ 6 * (n / lam) * (1 + vlen X).
Proof.
  intros cams n Z1 EP N3 VL G NL EL C.
  assert (L : (2 <= length cams)%nat) by (unfold cams; rewrite app_length; cbn [length]; rewrite app_length; cbn [length]; lia).
  assert (N2 : 2 <= n) by (apply (le_INR 2); exact L). assert (L0 : 0 < lam) by lra.
  apply C127_lemma; try assumption.
  unfold cams. rewrite map_app. cbn [map]. rewrite map_app. cbn [map].
  apply C86b_lemma; [|exact C|exact L0].
  replace (map (fun a0 => mkRay (Coords := WorldFrame) (mc_c a0) (vsub X (mc_c a0))) l1 ++ mkRay (mc_c a) (vsub X (mc_c a)) :: map (fun a0 => mkRay (mc_c a0) (vsub X (mc_c a0))) l2 ++
    mkRay (mc_c b) (vsub X (mc_c b)) :: map (fun a0 => mkRay (mc_c a0) (vsub X (mc_c a0))) l3) with (map (fun a0 => mkRay (Coords := WorldFrame) (mc_c a0) (vsub X (mc_c a0))) cams).
  - apply Forall_map. eapply Forall_impl; [|exact G]. intros c H. exact (good_mcam_apart Z eps X c H).
  - unfold cams. rewrite map_app. cbn [map]. rewrite map_app. reflexivity.
Qed.
End F64.
