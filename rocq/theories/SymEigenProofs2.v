(** * SymEigenProofs2.v - nalgebra's 3x3 SVD over the reals: the eigenvector iteration *)

From Coq Require Import Reals List Arith Lra Lia Psatz.
From Verif Require Import Scalar Linalg Householder RayIntersection SymEigen Spec SpecIsect RealBase VecLemmas FromViewProofs QRProofs
  TriProofs FloatIsectProofs4 SymEigenProofs.
Import ListNotations.
Local Open Scope R_scope.

(** ** Matrices which differ by at most [b] *)
Definition appr (a b : M33 R) (e : R) : Prop := forall v, vdist (mv a v) (mv b v) <= e * vlen v.
Lemma appr_refl a : appr a a 0.
Proof. intros v. unfold vdist. rewrite vsub_diag, vlen_O. lra. Qed.
Lemma appr_trans a b c e f : appr a b e -> appr b c f -> appr a c (e + f).
Proof.
  intros H1 H2 v. specialize (H1 v). specialize (H2 v). unfold vdist in *.
  replace (vsub (mv a v) (mv c v)) with (vadd (vsub (mv a v) (mv b v)) (vsub (mv b v) (mv c v)))
    by (generalize (mv a v) (mv b v) (mv c v); intros; vring).
  eapply Rle_trans; [apply vlen_triangle|]. lra.
Qed.
Lemma appr_le a b e f : e <= f -> appr a b e -> appr a b f.
Proof. intros H A v. specialize (A v). pose proof (vlen_nonneg v). nra. Qed.
Lemma appr_sim q a b e : orthogonal q -> appr a b e -> appr (sim q a) (sim q b) e.
Proof.
  intros Oq A v. unfold sim, vdist. rewrite !mv_mm, <- mv_vsub, orthogonal_len by exact Oq.
  rewrite <- (orthogonal_len (mtr q) v) by now apply orthogonal_mtr. apply A.
Qed.
Lemma vlen_le a b : vdot a a <= b * b -> 0 <= b -> vlen a <= b.
Proof. intros H B. apply Rsqr_incr_0_var; [|exact B]. unfold Rsqr. now rewrite vlen_sq. Qed.
Lemma appr_sq a b e : (forall v, vdot (vsub (mv a v) (mv b v)) (vsub (mv a v) (mv b v)) <= e * e * vdot v v) -> appr a b (Rabs e).
Proof.
  intros H v. unfold vdist. apply vlen_le; [|apply Rmult_le_pos; [apply Rabs_pos|apply vlen_nonneg]].
  replace (Rabs e * vlen v * (Rabs e * vlen v)) with (Rabs e * Rabs e * (vlen v * vlen v)) by ring.
  rewrite vlen_sq. replace (Rabs e * Rabs e) with (e * e); [apply H|].
  rewrite <- Rabs_mult. symmetry. apply Rabs_pos_eq. apply Rle_0_sqr.
Qed.
Lemma appr_off0 d a a' b : appr (tri d (mkV2 a b)) (tri d (mkV2 a' b)) (Rabs (a - a')).
Proof.
  apply appr_sq. intros [x y z]. pose proof (Rle_0_sqr ((a - a') * z)) as P. unfold Rsqr in P. unfold tri. destruct d. ru_spec. nra.
Qed.
Lemma appr_off1 d a b b' : appr (tri d (mkV2 a b)) (tri d (mkV2 a b')) (Rabs (b - b')).
Proof.
  apply appr_sq. intros [x y z]. pose proof (Rle_0_sqr ((b - b') * x)) as P. unfold Rsqr in P. unfold tri. destruct d. ru_spec. nra.
Qed.

(** the diagonal of a matrix similar to [s] is bounded by the norm of [s] *)
Definition bnd (a : M33 R) (l : R) : Prop := forall v, vlen (mv a v) <= l * vlen v.
Lemma bnd_sim s q t l : orthogonal q -> s = sim q t -> bnd s l -> bnd t l.
Proof.
  intros Oq -> B v. specialize (B (mv q v)). unfold sim in B. rewrite !mv_mm, orthogonal_inv_l, !(orthogonal_len q) in B by exact Oq. exact B.
Qed.
Lemma bnd_diag d o l : bnd (tri d o) l -> Rabs (vx d) <= l /\ Rabs (vy d) <= l /\ Rabs (vz d) <= l.
Proof.
  intros B.
  assert (K : forall e, vdot e e = 1 -> Rabs (vdot e (mv (tri d o) e)) <= l).
  { intros e E. pose proof (cauchy e (mv (tri d o) e)) as C. specialize (B e). rewrite (vlen_1 e E) in *. lra. }
  pose proof (K (mkV3 1 0 0)) as K0. pose proof (K (mkV3 0 1 0)) as K1. pose proof (K (mkV3 0 0 1)) as K2. clear K B.
  unfold tri in *. destruct d, o. ru_spec. split; [|split].
  - eapply Rle_trans; [|apply K0; ring]. right. f_equal. ring.
  - eapply Rle_trans; [|apply K1; ring]. right. f_equal. ring.
  - eapply Rle_trans; [|apply K2; ring]. right. f_equal. ring.
Qed.

(** ** The 2x2 step *)
Lemma half_R : o_lit 1%Z (-1)%Z = / 2 :> R.
Proof. change (1 * / (2 * 1) = / 2). field. Qed.
Lemma eigvals_R a b d : exists v1 v2, eigvals_2x2 a b b d = Some (v1, v2) /\
  (v1 - d) * (v1 - d) - (a - d) * (v1 - d) - b * b = 0.
Proof.
  unfold eigvals_2x2. rewrite half_R. cbn [o_mul o_add o_sub o_sqrt o_leb o_zero R_ops].
  set (w := (a - d) * / 2). assert (P : 0 <= b * b + w * w) by nra.
  destruct (Rleb 0 (b * b + w * w)) eqn:E; [|apply Bool.not_true_iff_false in E; exfalso; apply E; apply Rleb_true; exact P].
  do 2 eexists. split; [reflexivity|]. pose proof (sqrt_sqrt _ P) as Q. set (r := sqrt (b * b + w * w)) in *.
  replace ((a + d) * / 2 + r - d) with (w + r) by (unfold w; field). replace (a - d) with (2 * w) by (unfold w; field). nra.
Qed.
Lemma rotated_off a b d x c s : x * x - (a - d) * x - b * b = 0 -> c * c + s * s = 1 -> c * b = s * x -> 0 < x * x + b * b ->
  b * (c * c - s * s) - c * s * (a - d) = 0.
Proof.
  intros X C Y P.
  assert (C2 : c * c * (x * x + b * b) = x * x).
  { replace (c * c * (x * x + b * b)) with (c * c * (x * x) + (c * b) * (c * b)) by ring. rewrite Y.
    replace (c * c * (x * x) + s * x * (s * x)) with ((c * c + s * s) * (x * x)) by ring. rewrite C. ring. }
  assert (S2 : s * s * (x * x + b * b) = b * b).
  { replace (s * s * (x * x + b * b)) with ((s * x) * (s * x) + s * s * (b * b)) by ring. rewrite <- Y.
    replace (c * b * (c * b) + s * s * (b * b)) with ((c * c + s * s) * (b * b)) by ring. rewrite C. ring. }
  assert (CS : c * s * (x * x + b * b) = x * b).
  { replace (c * s * (x * x + b * b)) with (c * x * (s * x) + s * b * (c * b)) by ring.
    transitivity (c * x * (c * b) + s * b * (s * x)); [rewrite Y; ring|].
    replace (c * x * (c * b) + s * b * (s * x)) with ((c * c + s * s) * (x * b)) by ring. rewrite C. ring. }
  apply (Rmult_eq_reg_l (x * x + b * b)); [|lra]. rewrite Rmult_0_r.
  replace ((x * x + b * b) * (b * (c * c - s * s) - c * s * (a - d)))
    with (b * (c * c * (x * x + b * b)) - b * (s * s * (x * x + b * b)) - (c * s * (x * x + b * b)) * (a - d)) by ring.
  rewrite C2, S2, CS.
  replace (b * (x * x) - b * (b * b) - x * b * (a - d)) with (b * (x * x - (a - d) * x - b * b)) by ring. rewrite X. ring.
Qed.
Lemma two_0 a b d z x eps q : 0 <= eps -> orthogonal q -> x * x - (a - d) * x - b * b = 0 ->
  exists q' l e, match givens_try_new x b eps with Some (c, s) => rotate_rows c s 0 q | None => Some q end = Some q' /\
    orthogonal q' /\ Rabs e <= eps /\ sim q (tri (mkV3 a d z) (mkV2 b 0)) = sim q' (tri l (mkV2 e 0)).
Proof.
  intros E0 Oq X. destruct (givens_spec x b eps E0) as [(-> & _ & B)|(c & s & -> & C & Y & P)].
  - exists q, (mkV3 a d z), b. auto.
  - rewrite rotate_rows_0. pose proof (rotated_off a b d x c s X C Y P) as Z.
    exists (mm q (rot01 c s)), (mkV3 (c * c * a + 2 * (c * s) * b + s * s * d) (s * s * a - 2 * (c * s) * b + c * c * d) z), (b * (c * c - s * s) - c * s * (a - d)).
    split; [reflexivity|]. pose proof (rot01_orth c s C) as O1. split; [now apply orthogonal_mm|]. split; [rewrite Z, Rabs_R0; exact E0|].
    rewrite <- (sim_mm q (mtr (rot01 c s)) (tri _ _)) by (now apply orthogonal_mtr). rewrite mtr_mtr. f_equal.
    clear Z. unfold tri, rot01. cbn [vx vy vz px py]. apply M33_eq; ru_spec; ring.
Qed.
Lemma two_1 z a b d x eps q : 0 <= eps -> orthogonal q -> x * x - (a - d) * x - b * b = 0 ->
  exists q' l e, match givens_try_new x b eps with Some (c, s) => rotate_rows c s 1 q | None => Some q end = Some q' /\
    orthogonal q' /\ Rabs e <= eps /\ sim q (tri (mkV3 z a d) (mkV2 0 b)) = sim q' (tri l (mkV2 0 e)).
Proof.
  intros E0 Oq X. destruct (givens_spec x b eps E0) as [(-> & _ & B)|(c & s & -> & C & Y & P)].
  - exists q, (mkV3 z a d), b. auto.
  - rewrite rotate_rows_1. pose proof (rotated_off a b d x c s X C Y P) as Z.
    exists (mm q (rot12 c s)), (mkV3 z (c * c * a + 2 * (c * s) * b + s * s * d) (s * s * a - 2 * (c * s) * b + c * c * d)), (b * (c * c - s * s) - c * s * (a - d)).
    split; [reflexivity|]. pose proof (rot12_orth c s C) as O1. split; [now apply orthogonal_mm|]. split; [rewrite Z, Rabs_R0; exact E0|].
    rewrite <- (sim_mm q (mtr (rot12 c s)) (tri _ _)) by (now apply orthogonal_mtr). rewrite mtr_mtr. f_equal.
    clear Z. unfold tri, rot12. cbn [vx vy vz px py]. apply M33_eq; ru_spec; ring.
Qed.
