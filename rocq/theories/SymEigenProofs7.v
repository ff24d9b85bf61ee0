(** * SymEigenProofs7.v - the decomposition converges at once when [m^T m] is diagonal *)

From Coq Require Import Reals List Arith Lra Lia Psatz.
From Verif Require Import Scalar Linalg Bundles Householder RayIntersection SymEigen Spec SpecGeom SpecIsect SpecTri SpecSvd RealBase VecLemmas FromViewProofs QRProofs
  IsectBase IsectProofs TriProofs SymEigenProofs SymEigenProofs2 SymEigenProofs3 SymEigenProofs4 SymEigenProofs5 SymEigenProofs6.
Import ListNotations.
Local Open Scope R_scope.

Lemma axis_zero l : l = repeat 0 (length l) -> l <> [] -> snd (fst (reflection_axis_mut l)) = 0 /\ snd (reflection_axis_mut l) = false.
Proof.
  intros H N. destruct l as [|c rest]; [congruence|]. cbn [length repeat] in H. injection H as -> HR.
  unfold reflection_axis_mut. rewrite ldot_R, o_two_R.
  assert (Z : rdot (0 :: rest) (0 :: rest) = 0).
  { cbn [rdot]. rewrite HR at 1. rewrite rdot_repeat. ring. }
  rewrite Z. unfold to_exp. cbn [o_zero o_one o_neg o_leb o_mul o_add o_sqrt o_eqb R_ops].
  replace (Rleb 0 0) with true by (symmetry; apply Rleb_true; lra). rewrite sqrt_0.
  replace (Reqb ((0 + 0 * 0) * 2) 0) with true by (symmetry; apply Reqb_true; ring). cbn [negb fst snd]. split; [ring|reflexivity].
Qed.
Lemma tridiagonalize_diag x y z : exists q, tridiagonalize (mdiag (mkV3 x y z)) = (q, mkV3 x y z, mkV2 0 0).
Proof.
  unfold tridiagonalize, mdiag. cbn [m00 m01 m02 m10 m11 m12 m20 m21 m22 vx vy vz].
  destruct (axis_zero [0; 0] eq_refl ltac:(discriminate)) as (A & B).
  destruct (reflection_axis_mut [0; 0]) as [[ax0 n0] z0]. cbn [fst snd] in A, B. subst n0 z0.
  destruct (axis_zero [0] eq_refl ltac:(discriminate)) as (A & B).
  destruct (reflection_axis_mut [0]) as [[ax1 n1] z1]. cbn [fst snd] in A, B. subst n1 z1.
  eexists. cbn [o_abs R_ops]. rewrite Rabs_R0. reflexivity.
Qed.
Lemma eigen_diag x y z eps n : 0 <= eps -> exists e, symmetric_eigen (mdiag (mkV3 x y z)) eps n = Some (Some e).
Proof.
  intros E0. unfold symmetric_eigen. set (a := camax _).
  assert (K : exists x' y' z', (if negb (o_eqb a o_zero) then m33_unscale (mdiag (mkV3 x y z)) a else mdiag (mkV3 x y z)) = mdiag (mkV3 x' y' z')).
  { destruct (negb _); [|now exists x, y, z]. exists (/ a * x), (/ a * y), (/ a * z). rewrite unscale_R. unfold mdiag. apply M33_eq; ru_spec; ring. }
  destruct K as (x' & y' & z' & ->). destruct (tridiagonalize_diag x' y' z') as (q & ->).
  assert (D : delimit_subproblem (mkV3 x' y' z') (mkV2 0 0) 2 eps = Some (0%nat, 0%nat, mkV2 0 0)).
  { unfold delimit_subproblem. cbn [delimit_end]. rewrite coupling_1, coupling_0. cbn [bind fst snd o_ltb R_ops px py vx vy vz].
    rewrite Rabs_R0. pose proof (Rabs_pos x'). pose proof (Rabs_pos y'). pose proof (Rabs_pos z').
    replace (Rltb (eps * (Rabs z' + Rabs y')) 0) with false by (symmetry; apply Rltb_false; nra).
    replace (Rltb (eps * (Rabs y' + Rabs x')) 0) with false by (symmetry; apply Rltb_false; nra). reflexivity. }
  rewrite D. cbn [bind]. replace (qr_loop eps n 0 0 (mkV3 x' y' z', mkV2 0 0, q)) with (Some (Some (mkV3 x' y' z', q))) by (destruct n; reflexivity).
  cbn [bind]. eexists. reflexivity.
Qed.
Lemma svd_diag m eps n : 0 <= eps -> (exists l, mm (mtr m) m = mdiag l) -> exists d, svd_ordered3 m true true eps n = Some (Some d).
Proof.
  intros E0 ([x y z] & D). destruct (eigen_diag x y z eps n E0) as ([vals v] & E).
  assert (G : exists k, at_most k m).
  { exists (Rabs x + Rabs y + Rabs z + 1). intros w. apply vlen_le.
    2: { apply Rmult_le_pos; [|apply vlen_nonneg]. pose proof (Rabs_pos x). pose proof (Rabs_pos y). pose proof (Rabs_pos z). lra. }
    rewrite dot_gram, D. set (s := Rabs x + Rabs y + Rabs z + 1).
    replace (s * vlen w * (s * vlen w)) with (s * s * (vlen w * vlen w)) by ring. rewrite vlen_sq.
    pose proof (Rabs_pos x). pose proof (Rabs_pos y). pose proof (Rabs_pos z). pose proof (Rle_abs x). pose proof (Rle_abs y). pose proof (Rle_abs z).
    assert (S1 : s <= s * s) by (unfold s; nra). assert (X : x <= s) by (unfold s; lra). assert (Y : y <= s) by (unfold s; lra). assert (Z : z <= s) by (unfold s; lra).
    clearbody s. destruct w as [a b c]. unfold mdiag. ru_spec. nra. }
  destruct G as (k & G).
  destruct (svd_ordered3_spec m k eps n E0 G) as (r & Er & _). destruct r as [d|]; [now exists d|]. exfalso.
  unfold svd_ordered3 in Er. rewrite m33_transpose_R, m33_mul_R, D, E in Er. cbn [bind] in Er.
  rewrite m33_mul_R, col_norm_0, col_norm_1, col_norm_2 in Er. cbn [bind] in Er.
  repeat match type of Er with bind ?o _ = _ => destruct o as [[? ?]|]; cbn [bind fst snd] in Er; try discriminate
    | context [if ?b then _ else _] => destruct b end.
Qed.
Lemma svd_columns m eps n : 0 <= eps ->
  vdot (mcol0 m) (mcol1 m) = 0 -> vdot (mcol0 m) (mcol2 m) = 0 -> vdot (mcol1 m) (mcol2 m) = 0 ->
  exists d, svd_ordered3 m true true eps n = Some (Some d).
Proof.
  intros E0 H1 H2 H3. apply svd_diag; [exact E0|]. exists (mkV3 (vdot (mcol0 m) (mcol0 m)) (vdot (mcol1 m) (mcol1 m)) (vdot (mcol2 m) (mcol2 m))).
  destruct m as [a b c d e f g h i]. unfold mdiag. apply M33_eq; ru_spec; lra.
Qed.
