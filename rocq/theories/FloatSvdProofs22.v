(** * FloatSvdProofs22.v - the singular value decomposition converges in double precision (C113) *)

From Coq Require Import ZArith Reals List Bool Lra Lia Psatz.
From Flocq Require Import Core BinarySingleNaN.
From Verif Require Import Scalar Linalg Bundles RayIntersection SymEigen Spec SpecGeom SpecIsect SpecTri SpecFloatErr SpecFloatIsect SpecSvd SpecFloatSvd SpecFloatSvd2 RealBase VecLemmas ExtrinsicsProofs IsectBase IsectProofs SpectralProofs TriProofs FloatBase FloatRound FloatErrProofs FloatErrProofs2 FloatApprox FloatDirProofs FloatIsectProofs FloatIsectProofs2 FloatIsectProofs3 FloatIsectProofs4
  SymEigenProofs SymEigenProofs5 SymEigenProofs6 FloatSvdProofs FloatSvdProofs2 FloatSvdProofs6 FloatSvdProofs7 FloatSvdProofs11 FloatSvdProofs12 FloatSvdProofs13 FloatSvdProofs14 FloatSvdProofs15 FloatSvdProofs20 FloatSvdProofs21.
Import ListNotations.
Local Open Scope R_scope.

(** ** From pairs of directions to the trace *)
Lemma tr3_axes g a b c : orthogonal (mcols a b c) -> tr3 g = vdot a (mv g a) + vdot b (mv g b) + vdot c (mv g c).
Proof.
  intros O. rewrite <- (tr3_sim (mtr (mcols a b c)) g (orthogonal_mtr _ O)). unfold sim, mcols, tr3. destruct a, b, c, g. ru_spec. ring.
Qed.
Lemma len1 v : vdot v v = 1 -> vlen v = 1.
Proof. intros H. unfold vlen. rewrite H. apply sqrt_1. Qed.
Lemma unit_pairs c m u : pairs_at_least c m -> vdot u u = 1 -> c + vdot u (mv (mm (mtr m) m) u) <= tr3 (mm (mtr m) m).
Proof.
  intros P U. destruct (second_axis u U) as (v & V & UV). destruct (third_axis u v U V UV) as (W & UW & VW). set (w := vcross u v) in *.
  rewrite (tr3_axes (mm (mtr m) m) u v w) by now apply mcols_orthogonal.
  specialize (P v w (len1 v V) (len1 w W) VW). simpl in P. rewrite !Rmult_1_r, !vlen_sq in P. rewrite !dot_gram in P. lra.
Qed.
Lemma pairs_trace c m v : pairs_at_least c m -> c * vdot v v + vdot v (mv (mm (mtr m) m) v) <= tr3 (mm (mtr m) m) * vdot v v.
Proof.
  intros P. destruct (V3_dec v vO) as [->|N]. { rewrite !vdot_O_l. lra. }
  pose proof (unit_pairs c m (vunit v) P (vunit_dot v N)) as H. set (G := mm (mtr m) m) in *. clearbody G.
  rewrite <- (vunit_scale v N). pose proof (vlen_pos v N) as L. set (e := vunit v) in *. set (l := vlen v) in *.
  assert (E1 : vdot e e = 1) by now apply vunit_dot. rewrite !mv_vscl, !vdot_vscl_l, !vdot_vscl_r, E1.
  assert (0 <= l * l) by (apply Rmult_le_pos; lra). replace (c * (l * (l * 1)) + l * (l * vdot e (mv G e))) with ((c + vdot e (mv G e)) * (l * l)) by ring.
  replace (tr3 G * (l * (l * 1))) with (tr3 G * (l * l)) by ring. now apply Rmult_le_compat_r.
Qed.

(** ** The decomposition *)
Lemma svd_none {T} {OT : Ops T} (m : M33 T) eps n : svd_ordered3 m true true eps n = Some None -> forall d q, symmetric_eigen (m33_mul (m33_transpose m) m) eps n <> Some (Some (d, q)).
Proof.
  intros H d q E. unfold svd_ordered3 in H. rewrite E in H. cbn [bind] in H. unfold bind in H.
  repeat match type of H with context [match ?x with _ => _ end] => destruct x; try discriminate end.
Qed.
Lemma C113_lemma (gsin gcos : f64 -> f64) (m : M33 f64) k lam : mat_finite m -> at_most k (mreal m) -> at_least lam (mreal m) -> 0 < lam ->
  k <= 300 * lam -> bpow radix2 (- (400)) <= k <= bpow radix2 400 -> pairs_at_least (49 / 100 * k ^ 2) (mreal m) ->
  exists d, @svd_ordered3 f64 (f64_ops gsin gcos) m true true (@lit_1em7 f64 (f64_ops gsin gcos)) 100 = Some (Some d) /\
    decomposes64 (27 / 10 ^ 7 * (k / lam) * k) (1 / 10 ^ 11) m d.
Proof.
  intros FM AM AL L0 KL SK PA.
  assert (H : exists r, @svd_ordered3 f64 (f64_ops gsin gcos) m true true (@lit_1em7 f64 (f64_ops gsin gcos)) 100 = Some r /\ forall d, r = Some d ->
    decomposes64 (27 / 10 ^ 7 * (k / lam) * k) (1 / 10 ^ 11) m d) by exact (C110_lemma gsin gcos m k lam 100 FM AM AL L0 KL SK (le_n _)).
  destruct H as (r & ER & HR). destruct r as [d|]; [exists d; split; [exact ER|now apply HR]|]. exfalso. clear HR.
  destruct (lit_1em7_f gsin gcos) as (e & FE & E1). pose proof (at_most_pos _ _ AM) as K0.
  assert (FM' : mfin m) by (unfold mat_finite in FM; apply mfin_of; tauto).
  assert (SK5 : bpow radix2 (- (500)) <= k <= bpow radix2 500). { split; [apply Rle_trans with (bpow radix2 (- (400))); [apply bpow_le; lia|lra]|apply Rle_trans with (bpow radix2 400); [lra|apply bpow_le; lia]]. }
  destruct (eigen_ok gsin gcos m k (@lit_1em7 f64 (f64_ops gsin gcos)) e FM' AM SK5 FE E1) as (d & q & EE & _).
  - intros v. replace (0.49 * (k * k)) with (49 / 100 * k ^ 2) by (simpl; lra). now apply pairs_trace.
  - exact (svd_none m _ _ ER d q EE).
Qed.

(** ** The matrix of the normal equations *)
Lemma bessel v w d : vdot v v = 1 -> vdot w w = 1 -> vdot v w = 0 -> vdot v d * vdot v d + vdot w d * vdot w d <= vdot d d.
Proof.
  intros V W VW. destruct (third_axis v w V W VW) as (X & VX & WX). set (x := vcross v w) in *. clearbody x.
  pose proof (expand v w x d ltac:(now apply mcols_orthogonal)) as E.
  assert (D : vdot d d = vdot v d * vdot v d + vdot w d * vdot w d + vdot x d * vdot x d).
  { rewrite E at 2. rewrite !vdot_vadd_r, !vdot_vscl_r, !(vdot_comm d). ring. }
  pose proof (Rle_0_sqr (vdot x d)). unfold Rsqr in *. lra.
Qed.
Lemma line_pair d v w : d <> vO -> vdot v v = 1 -> vdot w w = 1 -> vdot v w = 0 -> 1 <= line_dist2 v vO d + line_dist2 w vO d.
Proof.
  intros D V W VW. pose proof (bessel v w d V W VW) as B. unfold line_dist2. rewrite !vsub_0_r, !lagrange, V, W.
  assert (P : 0 < vdot d d) by (rewrite <- vlen_sq; pose proof (vlen_pos d D); now apply Rmult_lt_0_compat).
  apply (Rmult_le_reg_r (vdot d d)); [exact P|]. unfold Rdiv. rewrite <- Rmult_plus_distr_r, Rmult_assoc, Rinv_l by lra. lra.
Qed.
Lemma sum_pair {C} (rays : list (Ray C R)) v w : nonzero_dirs rays -> vdot v v = 1 -> vdot w w = 1 -> vdot v w = 0 ->
  INR (length rays) <= sum_sq_sin rays v + sum_sq_sin rays w.
Proof.
  intros N V W VW. induction N as [|r rays D N IH]; [unfold sum_sq_sin, rsum; cbn; lra|].
  cbn [length]. rewrite S_INR. unfold sum_sq_sin in *. rewrite !rsum_cons. pose proof (line_pair _ v w D V W VW). lra.
Qed.
Lemma len_dot m v a : vdot v v = 1 -> a = - vdot v (mv m v) -> a * a <= vlen (mv m v) * vlen (mv m v).
Proof.
  intros V ->. pose proof (cauchy v (mv m v)) as C. rewrite (len1 v V), Rmult_1_l in C. replace (- vdot v (mv m v) * - vdot v (mv m v)) with (Rabs (vdot v (mv m v)) * Rabs (vdot v (mv m v))) by (rewrite <- Rabs_mult, Rabs_pos_eq; [ring|apply Rle_0_sqr]).
  pose proof (Rabs_pos (vdot v (mv m v))). apply Rmult_le_compat; assumption.
Qed.
Lemma Smat_pairs {C} (rays : list (Ray C R)) : nonzero_dirs rays -> pairs_at_least (INR (length rays) * INR (length rays) / 2) (Smat rays).
Proof.
  intros N v w V W VW. assert (V' : vdot v v = 1) by (rewrite <- vlen_sq, V; ring). assert (W' : vdot w w = 1) by (rewrite <- vlen_sq, W; ring).
  pose proof (sum_pair rays v w N V' W' VW) as S. pose proof (len_dot (Smat rays) v _ V' (sum_sq_sin_quad rays v N)) as A. pose proof (len_dot (Smat rays) w _ W' (sum_sq_sin_quad rays w N)) as B.
  set (a := sum_sq_sin rays v) in *. set (b := sum_sq_sin rays w) in *. pose proof (pos_INR (length rays)) as P. set (n := INR (length rays)) in *. clearbody a b n.
  assert (Q : n * n <= (a + b) * (a + b)) by (apply Rmult_le_compat; lra). pose proof (Rle_0_sqr (a - b)) as Z. unfold Rsqr in Z. simpl. rewrite !Rmult_1_r. lra.
Qed.
Lemma sq_shrink x y e n : 0 <= x -> 0 <= y <= n -> 0 <= e -> y - e <= x -> y * y - 2 * e * n <= x * x.
Proof.
  intros X Y E L. assert (P : 0 <= x * x) by (apply Rle_0_sqr). assert (EN : e * y <= e * n) by (apply Rmult_le_compat_l; lra). destruct (Rle_dec e y) as [H|H].
  - assert ((y - e) * (y - e) <= x * x) by (apply Rmult_le_compat; lra). pose proof (Rle_0_sqr e). unfold Rsqr in *. lra.
  - assert (y * y <= e * y) by (apply Rmult_le_compat_r; lra). assert (0 <= e * y) by (apply Rmult_le_pos; lra). lra.
Qed.
Lemma close_pairs e m s k c : 0 <= e -> mclose e m s -> at_most k s -> pairs_at_least c s -> pairs_at_least (c - 12 * e * k) m.
Proof.
  intros E MC A P v w V W VW. specialize (P v w V W VW). simpl in *. rewrite !Rmult_1_r in *.
  assert (G : forall x, vlen x = 1 -> vlen (mv s x) * vlen (mv s x) - 2 * (3 * e) * k <= vlen (mv m x) * vlen (mv m x)).
  { intros x X. pose proof (mclose_mv e m s x E MC) as Q. unfold vdist in Q. pose proof (A x) as AX. rewrite X, ?Rmult_1_r in *.
    assert (vlen (mv s x) <= vlen (vsub (mv m x) (mv s x)) + vlen (mv m x)).
    { replace (mv s x) with (vadd (vscl (-1) (vsub (mv m x) (mv s x))) (mv m x)) at 1 by (generalize (mv m x) (mv s x); intros; vring).
      eapply Rle_trans; [apply vlen_triangle|]. rewrite vlen_vscl, Rabs_left by lra. lra. }
    apply sq_shrink; [apply vlen_nonneg|split; [apply vlen_nonneg|lra]|lra|lra]. }
  pose proof (G v V). pose proof (G w W). lra.
Qed.
