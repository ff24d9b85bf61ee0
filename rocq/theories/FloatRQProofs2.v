(** * FloatRQProofs2.v - the RQ decomposition of a camera matrix against the exact one (C108) *)

From Coq Require Import ZArith Reals List Bool Lra Lia Psatz.
From Flocq Require Import Core BinarySingleNaN.
From Verif Require Import Scalar Linalg Householder Perspective Extrinsics Camera Spec SpecFloatErr SpecFloatRQ RealBase VecLemmas FromViewProofs SpectralProofs FloatBase FloatRound FloatErrProofs FloatApprox FloatRigidProofs
  FloatDirProofs FloatViewProofs QRProofs JacProofs FloatIsectProofs4 FloatQRProofs FloatQRProofs2 RQPerturbProofs FloatRQProofs.
Import ListNotations.
Local Open Scope R_scope.

Lemma vlen_eq_sq v w : vdot v v = vdot w w -> vlen v = vlen w.
Proof. intros H. unfold vlen. now rewrite H. Qed.
Lemma vlen_perm x y z : vlen (mkV3 x y z) = vlen (mkV3 z y x).
Proof. apply vlen_eq_sq. vring. Qed.
Lemma vlen_axis x : vlen (mkV3 x 0 0) = Rabs x.
Proof. unfold vlen. rewrite <- sqrt_Rsqr_abs. f_equal. unfold Rsqr. ru_spec. ring. Qed.
Lemma first_le x y z : Rabs x <= vlen (mkV3 x y z).
Proof. apply (comp_len (mkV3 x y z) 0). Qed.

Lemma len_scl t a b c : 0 <= t -> vlen (mkV3 (t * a) (t * b) (t * c)) = t * vlen (mkV3 c b a).
Proof. intros T. rewrite <- (vlen_perm a b c). replace (mkV3 (t * a) (t * b) (t * c)) with (vscl t (mkV3 a b c)) by vring. rewrite vlen_vscl, (Rabs_pos_eq t) by exact T. reflexivity. Qed.
Lemma len_scl2 t a b : 0 <= t -> vlen (mkV3 (t * a) (t * b) 0) = t * vlen (mkV3 b a 0).
Proof. intros T. replace (vlen (mkV3 b a 0)) with (vlen (mkV3 a b 0)) by (apply vlen_eq_sq; vring). replace (mkV3 (t * a) (t * b) 0) with (vscl t (mkV3 a b 0)) by vring. rewrite vlen_vscl, (Rabs_pos_eq t) by exact T. reflexivity. Qed.
Lemma det_tri t a b c d e : vdot (mkV3 t 0 0) (vcross (mkV3 (t * a) (t * b) 0) (mkV3 (t * c) (t * d) (t * e))) = t * t * t * (e * b).
Proof. vring. Qed.
Lemma frame_rows_gen sg t fx fy skew cx cy (m : M33 R) : let f := mcols (vscl sg (mrow2 m)) (vscl sg (mrow1 m)) (vscl sg (mrow0 m)) in
  let X := mscl (sg * t) (mm (kmat fx fy skew cx cy) m) in
  mv f (mkV3 t 0 0) = mrow2 X /\ mv f (mkV3 (t * cy) (t * fy) 0) = mrow1 X /\ mv f (mkV3 (t * cx) (t * skew) (t * fx)) = mrow0 X.
Proof. intros f X. unfold f, X, mcols, kmat. split; [|split]; vring. Qed.
Lemma frame_cols_gen sg (m : M33 R) : let f := mcols (vscl sg (mrow2 m)) (vscl sg (mrow1 m)) (vscl sg (mrow0 m)) in
  mv f (mkV3 1 0 0) = vscl sg (mrow2 m) /\ mv f (mkV3 0 1 0) = vscl sg (mrow1 m) /\ mv f (mkV3 0 0 1) = vscl sg (mrow0 m).
Proof. intros f. unfold f, mcols. split; [|split]; vring. Qed.

(** the exact rows in the frame of the rotation *)
Section Exact.
Variables (s sg fx fy skew cx cy : R) (Rm : M33 R).
Hypotheses (RO : orthogonal Rm) (SG : sg * sg = 1) (SS : sg * s = Rabs s) (S0 : s <> 0) (FX : 0 < fx) (FY : 0 < fy).
Local Notation X := (mscl s (mm (kmat fx fy skew cx cy) Rm)).
Local Notation n0 := (kr0 fx skew cx).
Local Notation n1 := (kr1 fy cy).
Local Notation th := (kspread fx fy skew cx cy).
Definition frame0 : M33 R := mcols (vscl sg (mrow2 Rm)) (vscl sg (mrow1 Rm)) (vscl sg (mrow0 Rm)).
Definition xr0 := mkV3 (Rabs s) 0 0.
Definition xr1 := mkV3 (Rabs s * cy) (Rabs s * fy) 0.
Definition xr2 := mkV3 (Rabs s * cx) (Rabs s * skew) (Rabs s * fx).
Lemma frame0_orth : orthogonal frame0.
Proof.
  unfold frame0. destruct RO as (T1 & T2). pose proof (f_equal m00 T2) as A00. pose proof (f_equal m11 T2) as A11. pose proof (f_equal m22 T2) as A22.
  pose proof (f_equal m01 T2) as A01. pose proof (f_equal m02 T2) as A02. pose proof (f_equal m12 T2) as A12.
  destruct Rm as [a b c d e f g h i]. revert A00 A11 A22 A01 A02 A12. ru_spec. intros.
  apply mcols_orthogonal; ru_spec.
  - transitivity (sg * sg * (g * g + h * h + i * i)); [ring|rewrite SG; lra].
  - transitivity (sg * sg * (d * d + e * e + f * f)); [ring|rewrite SG; lra].
  - transitivity (sg * sg * (a * a + b * b + c * c)); [ring|rewrite SG; lra].
  - transitivity (sg * sg * (d * g + e * h + f * i)); [ring|rewrite SG; lra].
  - transitivity (sg * sg * (a * g + b * h + c * i)); [ring|rewrite SG; lra].
  - transitivity (sg * sg * (a * d + b * e + c * f)); [ring|rewrite SG; lra].
Qed.
Lemma sgs : sg * Rabs s = s.
Proof. rewrite <- SS. replace (sg * (sg * s)) with (sg * sg * s) by ring. rewrite SG. ring. Qed.
Lemma frame0_rows : mv frame0 xr0 = mrow2 X /\ mv frame0 xr1 = mrow1 X /\ mv frame0 xr2 = mrow0 X.
Proof.
  rewrite <- sgs. apply frame_rows_gen.
Qed.
Lemma n0_pos : 0 < n0.
Proof. unfold kr0. pose proof (first_le fx skew cx) as H. rewrite Rabs_pos_eq in H by lra. lra. Qed.
Lemma n1_pos : 0 < n1.
Proof. unfold kr1. pose proof (first_le fy cy 0) as H. rewrite Rabs_pos_eq in H by lra. lra. Qed.
Lemma th_pos : 0 < th.
Proof. unfold kspread. apply Rdiv_lt_0_compat; apply Rmult_lt_0_compat; auto using n0_pos, n1_pos. Qed.
Lemma th_le1 : th <= 1.
Proof.
  pose proof n0_pos. pose proof n1_pos. unfold kspread. apply Rmult_le_reg_r with (n0 * n1); [nra|]. unfold Rdiv. rewrite Rmult_assoc, Rinv_l by nra.
  rewrite Rmult_1_r, Rmult_1_l. pose proof (first_le fx skew cx) as H1. pose proof (first_le fy cy 0) as H2. rewrite Rabs_pos_eq in H1, H2 by lra. apply Rmult_le_compat; lra || assumption.
Qed.
Lemma xr_len : vlen xr0 = Rabs s /\ vlen xr1 = Rabs s * n1 /\ vlen xr2 = Rabs s * n0.
Proof.
  pose proof (Rabs_pos s) as P. unfold xr0, xr1, xr2. split; [|split].
  - rewrite vlen_axis. apply Rabs_pos_eq. exact P.
  - apply len_scl2. exact P.
  - apply len_scl. exact P.
Qed.
Lemma xr_indep : indep (0.577 * th) xr0 xr1 xr2.
Proof.
  destruct xr_len as (L0 & L1 & L2). pose proof (Rabs_pos_lt s S0) as P. pose proof n0_pos as N0. pose proof n1_pos as N1.
  apply indep_det; [apply th_pos|rewrite L0; exact P|rewrite L1; nra|rewrite L2; nra|].
  rewrite L0, L1, L2. unfold kspread. unfold xr0, xr1, xr2. rewrite det_tri.
  assert (0 <= Rabs s * Rabs s * Rabs s * (fx * fy)) by (apply Rmult_le_pos; [|nra]; apply Rmult_le_pos; [nra|lra]).
  rewrite (Rabs_pos_eq (_ * (fx * fy))) by assumption. right. field. split; lra.
Qed.
Lemma x_len : vlen (mrow2 X) = Rabs s /\ vlen (mrow1 X) = Rabs s * n1 /\ vlen (mrow0 X) = Rabs s * n0.
Proof. destruct frame0_rows as (<- & <- & <-). rewrite !orthogonal_len by apply frame0_orth. apply xr_len. Qed.
Lemma x_indep : indep (0.577 * th) (mrow2 X) (mrow1 X) (mrow0 X).
Proof. destruct frame0_rows as (<- & <- & <-). apply indep_mv; [apply frame0_orth|apply xr_indep]. Qed.

(** the factors of a nearby matrix *)
Lemma factors_near (W : M33 R) D h22 h12 h11 h02 h01 h00 : orthogonal W -> 0 < D -> 3200000 * D <= th -> 0 < h22 -> 0 < h11 -> 0 < h00 ->
  vdist (mkV3 h22 0 0) (mv (mtr W) (mrow2 X)) <= 1133 * D * vlen (mrow2 X) ->
  vdist (mkV3 h12 h11 0) (mv (mtr W) (mrow1 X)) <= 1133 * D * vlen (mrow1 X) ->
  vdist (mkV3 h02 h01 h00) (mv (mtr W) (mrow0 X)) <= 1133 * D * vlen (mrow0 X) ->
  let e := 10762 * (D / th) in
  (vdist (mcol0 W) (vscl sg (mrow2 Rm)) <= e /\ vdist (mcol1 W) (vscl sg (mrow1 Rm)) <= e /\ vdist (mcol2 W) (vscl sg (mrow0 Rm)) <= e) /\
  let e' := 11900 * (D / th) in
  vdist (mkV3 h22 0 0) xr0 <= e' * Rabs s /\ vdist (mkV3 h12 h11 0) xr1 <= e' * (Rabs s * n1) /\ vdist (mkV3 h02 h01 h00) xr2 <= e' * (Rabs s * n0).
Proof.
  intros OW D0 DT H22 H11 H00 R0 R1 R2 e. pose proof th_pos as TP. pose proof th_le1 as T1. pose proof frame0_orth as OF. destruct frame0_rows as (F0 & F1 & F2). destruct xr_len as (L0 & L1 & L2).
  pose proof (Rabs_pos_lt s S0) as P. set (V := mm (mtr W) frame0). assert (OV : orthogonal V) by (apply orthogonal_mm; [apply orthogonal_mtr; exact OW|exact OF]).
  rewrite <- F0, orthogonal_len, <- mv_mm in R0 by exact OF. rewrite <- F1, orthogonal_len, <- mv_mm in R1 by exact OF. rewrite <- F2, orthogonal_len, <- mv_mm in R2 by exact OF. fold V in R0, R1, R2.
  assert (DD : D <= D / th) by (apply Rmult_le_reg_r with th; [exact TP|]; replace (D / th * th) with D by (field; lra); nra).
  pose proof (rq_perturb V (0.577 * th) (1133 * D) (Rabs s) (Rabs s * cy) (Rabs s * fy) (Rabs s * cx) (Rabs s * skew) (Rabs s * fx) h22 h12 h11 h02 h01 h00 OV) as PT.
  cbv zeta in PT. fold xr0 xr1 xr2 in PT.
  assert (PT' : forall v, vdist (mv V v) v <= 10762 * (D / th) * vlen v /\ vdist (mv (mtr V) v) v <= 10762 * (D / th) * vlen v).
  { assert (K : 5.48 * (1133 * D / (0.577 * th)) <= 10762 * (D / th)).
    { replace (1133 * D / (0.577 * th)) with (1133 / 0.577 * (D / th)) by (field; lra). assert (0 < D / th) by (apply Rdiv_lt_0_compat; lra). nra. }
    intros v. pose proof (vlen_nonneg v) as V0. destruct (PT ltac:(lra) ltac:(lra) ltac:(lra) P ltac:(now apply Rmult_lt_0_compat) ltac:(now apply Rmult_lt_0_compat) H22 H11 H00 xr_indep R0 R1 R2 v) as (A & B).
    pose proof (Rmult_le_compat_r _ _ _ V0 K). split; lra. }
  clear PT. split.
  - assert (COL : forall v, vlen v = 1 -> vdist (mv W v) (mv frame0 v) <= e).
    { intros v Lv. replace (mv W v) with (mv frame0 (mv (mtr V) v)).
      - rewrite orth_dist by exact OF. destruct (PT' v) as (_ & B). rewrite Lv in B. unfold e. lra.
      - unfold V. rewrite mtr_mm, mv_mm, orthogonal_inv_r by exact OF. reflexivity. }
    destruct (frame_cols_gen sg Rm) as (C0 & C1 & C2). fold frame0 in C0, C1, C2.
    rewrite mcol0_mv, mcol1_mv, mcol2_mv, <- C0, <- C1, <- C2. split; [|split]; apply COL; (unfold vlen; transitivity (sqrt 1); [f_equal; ru_spec; ring|apply sqrt_1]).
  - cbv zeta. rewrite <- L1, <- L2. rewrite <- L0 at 1.
    assert (FIN : forall h r, vdist h (mv V r) <= 1133 * D * vlen r -> vdist h r <= 11900 * (D / th) * vlen r).
    { intros h r Hh. pose proof (vdist_triangle h (mv V r) r) as T. destruct (PT' r) as (A & _). pose proof (vlen_nonneg r) as V0.
      pose proof (Rmult_le_compat_r _ _ _ V0 DD). pose proof (Rmult_le_pos _ _ (Rlt_le _ _ D0) V0). lra. }
    split; [|split]; apply FIN; assumption.
Qed.
End Exact.
