(** * FloatSvdProofs25.v - the singular value decomposition for any condition number (C116) *)

From Coq Require Import ZArith Reals List Bool Lra Lia Psatz.
From Flocq Require Import Core BinarySingleNaN.
From Verif Require Import Scalar Linalg Householder RayIntersection SymEigen Spec SpecGeom SpecIsect SpecFloatErr SpecFloatIsect SpecSvd SpecFloatSvd SpecFloatSvd2 RealBase VecLemmas ExtrinsicsProofs IsectBase IsectProofs SpectralProofs TriProofs FloatBase FloatRound FloatErrProofs FloatApprox FloatDirProofs FloatIsectProofs4 FloatQRProofs FloatQRProofs2 QRProofs
  SymEigenProofs SymEigenProofs2 SymEigenProofs3 SymEigenProofs4 SymEigenProofs5 SymEigenProofs6 FloatSvdProofs FloatSvdProofs2 FloatSvdProofs3 FloatSvdProofs4 FloatSvdProofs5 FloatSvdProofs6 FloatSvdProofs7 FloatSvdProofs8 FloatSvdProofs9 FloatSvdProofs10 FloatSvdProofs11 FloatSvdProofs12 FloatSvdProofs13 FloatSvdProofs20 FloatSvdProofs21 FloatSvdProofs22 FloatSvdProofs27 SymEigenProofs10.
Import ListNotations.
Local Open Scope R_scope.
Local Notation Z9 := (mkM33 0 0 0 0 0 0 0 0 0).

(** ** The part above the diagonal *)
Lemma frob_sq b c f y z x t : b * b + c * c + f * f <= t * t -> (b * y + c * z) * (b * y + c * z) + f * z * (f * z) <= t * t * (x * x + y * y + z * z).
Proof.
  intros H. pose proof (sqn (b * z - c * y)) as A. pose proof (sqn x) as X. pose proof (sqn y) as Y. pose proof (sqn z) as Z. pose proof (sqn f) as FF.
  assert (P : (b * b + c * c + f * f) * (x * x + y * y + z * z) <= t * t * (x * x + y * y + z * z)) by (apply Rmult_le_compat_r; lra).
  assert (Q1 : 0 <= f * f * (x * x + y * y)) by (apply Rmult_le_pos; lra). assert (Q2 : 0 <= (b * b + c * c) * (x * x)) by (apply Rmult_le_pos; [|exact X]; pose proof (sqn b); pose proof (sqn c); lra).
  lra.
Qed.
Lemma strict_upper_frob q r vt s t : orthogonal q -> orthogonal vt -> m10 r = 0 -> m20 r = 0 -> m21 r = 0 ->
  s = mkV3 (m00 r) (m11 r) (m22 r) -> 0 <= t -> m01 r * m01 r + m02 r * m02 r + m12 r * m12 r <= t * t ->
  appr (mm (mm q (mdiag s)) vt) (mm (mm q r) vt) t.
Proof.
  intros Oq Ov Z1 Z2 Z3 -> T0 TT v. unfold vdist. rewrite !mv_mm, <- mv_vsub, (orthogonal_len q) by exact Oq.
  rewrite <- (orthogonal_len vt v) by exact Ov. generalize (mv vt v). clear v. intros v.
  apply vlen_le; [|apply Rmult_le_pos; [exact T0|apply vlen_nonneg]].
  replace (t * vlen v * (t * vlen v)) with (t * t * (vlen v * vlen v)) by ring. rewrite vlen_sq.
  destruct r as [a b c d e f g h i], v as [x y z]. cbn [m00 m01 m02 m10 m11 m12 m20 m21 m22] in *. subst d g h.
  pose proof (frob_sq b c f y z x t TT) as P. unfold mdiag. ru_spec. lra.
Qed.
Lemma div_bound a x L d c : 0 < L -> L <= a -> Rabs (a * x) <= d -> d <= L * c -> Rabs x <= c.
Proof.
  intros L0 LA H D. rewrite Rabs_mult, (Rabs_pos_eq a) in H by lra. pose proof (Rabs_pos x).
  apply (Rmult_le_reg_l L); [exact L0|]. apply Rle_trans with (a * Rabs x); [apply Rmult_le_compat_r; lra|lra].
Qed.
Lemma sq_low a c : 0 <= a -> 0 <= c -> c * c <= a * a -> c <= a.
Proof. intros A C H. apply Rsqr_incr_0_var; [exact H|exact A]. Qed.
Lemma prod_small a b c : Rabs a <= c -> Rabs b <= c -> Rabs (a * b) <= c * c.
Proof. intros A B. rewrite Rabs_mult. pose proof (Rabs_pos a). pose proof (Rabs_pos b). apply Rmult_le_compat; assumption. Qed.
Lemma abs_sq_le a c : Rabs a <= c -> a * a <= c * c.
Proof. intros A. replace (a * a) with (Rabs a * Rabs a) by (rewrite <- Rabs_mult; apply Rabs_pos_eq, sqn). pose proof (Rabs_pos a). apply Rmult_le_compat; assumption. Qed.
Lemma upper_two r00 r01 r02 r11 r12 k d : 0 < k -> 0 <= r00 -> 0 <= r11 -> d <= 8.085e-7 * (k * k) ->
  Rabs (r00 * r01) <= d -> Rabs (r00 * r02) <= d -> Rabs (r01 * r02 + r11 * r12) <= d ->
  0.24 * (k * k) <= r00 * r00 -> 0.24 * (k * k) <= r01 * r01 + r11 * r11 ->
  r01 * r01 + r02 * r02 + r12 * r12 <= 2.87e-6 * k * (2.87e-6 * k).
Proof.
  intros K P0 P1 D H1 H2 H3 S0 S1. assert (KK : 0 < k * k) by (apply Rmult_lt_0_compat; exact K).
  assert (L0 : 0.4898 * k <= r00) by (apply sq_low; lra).
  assert (A1 : Rabs r01 <= 1.652e-6 * k) by (apply (div_bound r00 _ (0.4898 * k) d); lra).
  assert (A2 : Rabs r02 <= 1.652e-6 * k) by (apply (div_bound r00 _ (0.4898 * k) d); lra).
  pose proof (abs_sq_le _ _ A1) as Q1. pose proof (abs_sq_le _ _ A2) as Q2. pose proof (prod_small _ _ _ A1 A2) as Q12.
  assert (L1 : 0.4897 * k <= r11) by (apply sq_low; lra).
  assert (H4 : Rabs (r11 * r12) <= d + 1.652e-6 * k * (1.652e-6 * k)).
  { replace (r11 * r12) with ((r01 * r02 + r11 * r12) + - (r01 * r02)) by ring. eapply Rle_trans; [apply Rabs_triang|]. rewrite Rabs_Ropp. lra. }
  assert (A3 : Rabs r12 <= 1.652e-6 * k) by (apply (div_bound r11 _ (0.4897 * k) _ _ ltac:(lra) L1 H4); lra).
  pose proof (abs_sq_le _ _ A3) as Q3. lra.
Qed.

Section F64.
Variables gsin gcos : binary_float 53 1024 -> binary_float 53 1024.
Local Notation F := (binary_float 53 1024).
Local Hint Extern 0 (Ops (binary_float 53 1024)) => exact (B_ops 53 1024 f64_prec f64_emax gsin gcos) : typeclass_instances.
Local Notation flr := (fl 53 1024).
Local Notation u := (bpow radix2 (- (53))).
Local Notation cinv := cinv.

Lemma two_indep A B k d : 0 < k -> 0.244 * (k * k) <= vdot A A -> 0.244 * (k * k) <= vdot B B -> Rabs (vdot A B) <= d -> d <= 0.1 * (k * k) -> indep 0.5 A B vO.
Proof.
  intros K HA HB H D p q r. cbv zeta. replace (vadd (vadd (vscl p A) (vscl q B)) (vscl r vO)) with (vadd (vscl p A) (vscl q B)) by vring.
  replace (vdot (vadd (vscl p A) (vscl q B)) (vadd (vscl p A) (vscl q B))) with (p * p * vdot A A + q * q * vdot B B + 2 * (p * q) * vdot A B) by vring.
  replace (vdot vO vO) with 0 by vring. assert (KK : 0 < k * k) by (now apply Rmult_lt_0_compat). pose proof (Rle_0_sqr p) as P2. pose proof (Rle_0_sqr q) as Q2. unfold Rsqr in P2, Q2.
  set (aa := vdot A A) in *. set (bb := vdot B B) in *. set (ab := vdot A B) in *. clearbody aa bb ab.
  assert (X1 : p * p * (0.244 * (k * k)) <= p * p * aa) by (apply Rmult_le_compat_l; assumption). assert (X2 : q * q * (0.244 * (k * k)) <= q * q * bb) by (apply Rmult_le_compat_l; assumption).
  assert (X3 : Rabs (2 * (p * q) * ab) <= (p * p + q * q) * d).
  { rewrite Rabs_mult. apply Rmult_le_compat; try apply Rabs_pos; [|exact H]. apply Rabs_le. pose proof (Rle_0_sqr (p - q)) as M1. pose proof (Rle_0_sqr (p + q)) as M2. unfold Rsqr in M1, M2. split; lra. }
  apply Rabs_le_inv in X3. assert (X4 : (p * p + q * q) * d <= (p * p + q * q) * (0.1 * (k * k))) by (apply Rmult_le_compat_l; lra). lra.
Qed.
Lemma factors_p (m b v : M33 F) k e D : mfin m -> at_most k (mreal m) -> bpow radix2 (- (400)) <= k <= bpow radix2 400 ->
  0.99e-7 <= e <= 1.01e-7 -> 0 <= D -> D <= (8 * e + 5e-11) * (k * k) -> cinv (mreal m) 6e-12 (6.1e-12 * k) D b v ->
  0.244 * (k * k) <= cn0 (mreal b) -> 0.244 * (k * k) <= cn1 (mreal b) ->
  let qr := qr_new (cols_of_m33 b) in
  let sigma i := o_abs (nth i (qr_diag qr) (o_zero : F)) in
  decomposes64 (2.9e-6 * k) 1e-11 m (mkSVD (Some (qr_q qr)) (mkV3 (sigma 0%nat) (sigma 1%nat) (sigma 2%nat)) (Some (m33_transpose v))).
Proof.
  intros FM AM SK E1 D0 DK (Q & (FV & OQ & AQ) & SO & FB & AB) CN0 CN1 qr sigma.
  pose proof u64_le as U. pose proof (bpow_gt_0 radix2 (- (53))) as U0. pose proof (bpow_gt_0 radix2 (- (400))) as S0. assert (K0 : 0 < k) by lra.
  set (M := mreal m) in *. pose proof (mm_bnd_orth M Q k OQ AM) as BM.
  set (B0 := mm M Q) in *. set (B := mreal b) in *.
  pose proof (bnd_appr _ _ _ _ BM (appr_sym _ _ _ AB)) as BB.
  apply (bnd_le _ _ (1.0001 * k)) in BB; [|lra].
  destruct (cols_norm_most _ _ BB) as (Y0 & Y1 & Y2).
  assert (KK : 0 < k * k) by (apply Rmult_lt_0_compat; exact K0).
  assert (IN : indep 0.5 (mcol0 B) (mcol1 B) vO).
  { destruct (cols_off M Q D SO) as (O01 & _ & _). fold B0 in O01. destruct (appr_cols _ _ _ AB) as (T0 & T1 & _). destruct (cols_norm_most _ _ BM) as (W3 & W4 & _).
    apply (two_indep _ _ k (Rabs (vdot (mcol0 B) (mcol1 B)))); [exact K0|exact CN0|exact CN1|apply Rle_refl|].
    pose proof (dot_near _ _ _ _ (6.1e-12 * k) (1.0001 * k) T0 T1 ltac:(lra) ltac:(lra)) as H6.
    replace (vdot (mcol0 B) (mcol1 B)) with ((vdot (mcol0 B) (mcol1 B) - vdot (mcol0 B0) (mcol1 B0)) + vdot (mcol0 B0) (mcol1 B0)) by ring. eapply Rle_trans; [apply Rabs_triang|].
    assert (e * (k * k) <= 1.01e-7 * (k * k)) by (apply Rmult_le_compat_r; lra). lra. }
  assert (VL : forall x, 0.244 * (k * k) <= vdot x x -> 0.4 * (1.0001 * k) <= vlen x).
  { intros x X. apply (sq_low (vlen x) (0.4 * (1.0001 * k))); [apply vlen_nonneg|lra|]. rewrite vlen_sq. lra. }
  pose proof (mfin_fl b FB) as FB'. unfold fl in FB'.
  destruct (pad_col gsin gcos b) as (P0 & P1 & P2).
  destruct (qr_app2 gsin gcos [m00 b; m10 b; m20 b] [m01 b; m11 b; m21 b] [m02 b; m12 b; m22 b] (1.0001 * k)) as (W & OW & H); try reflexivity.
  { repeat (apply Forall_cons; [tauto|]). constructor. } { repeat (apply Forall_cons; [tauto|]). constructor. } { repeat (apply Forall_cons; [tauto|]). constructor. }
  { split; [apply Rle_trans with (bpow radix2 (- (400))); [apply bpow_le; lia|lra]|]. apply Rle_trans with (bpow radix2 1 * bpow radix2 400); [change (bpow radix2 1) with 2; lra|]. rewrite <- bpow_plus. apply bpow_le. lia. }
  { rewrite P0, P1. exact IN. } { rewrite P0. fold B. split; [apply VL; exact CN0|lra]. } { rewrite P1. fold B. split; [apply VL; exact CN1|lra]. } { rewrite P2. fold B. lra. }
  cbv zeta in H. change ([[m00 b; m10 b; m20 b]; [m01 b; m11 b; m21 b]; [m02 b; m12 b; m22 b]]) with (cols_of_m33 b) in H. fold qr in H.
  rewrite P0, P1, P2 in H. fold B in H.
  destruct H as ((_ & Fq0 & Dq0) & (_ & Fq1 & Dq1) & (_ & Fq2 & Dq2) & (_ & Fr0 & Dr0) & (_ & Fr1 & Dr1) & (_ & Fr2 & Dr2) & R0 & R1 & R2 & Z10 & Z20 & Z21).
  assert (SG : mkV3 (sigma 0%nat) (sigma 1%nat) (sigma 2%nat) = mkV3 (m00 (qr_r qr)) (m11 (qr_r qr)) (m22 (qr_r qr))) by reflexivity.
  rewrite SG. clear SG. clearbody sigma. set (r := qr_r qr) in *. set (q := qr_q qr) in *. clearbody qr r q.
  apply lfin3 in Fq0, Fq1, Fq2, Fr0, Fr1, Fr2. destruct Fq0 as (Fq00 & Fq10 & Fq20), Fq1 as (Fq01 & Fq11 & Fq21), Fq2 as (Fq02 & Fq12 & Fq22), Fr0 as (Fr00 & Fr10 & Fr20), Fr1 as (Fr01 & Fr11 & Fr21), Fr2 as (Fr02 & Fr12 & Fr22).
  assert (FQ : mfin q) by now apply mfin_of. assert (FR : mfin r) by now apply mfin_of.
  destruct (pad_col gsin gcos q) as (PQ0 & PQ1 & PQ2). destruct (pad_col gsin gcos r) as (PR0 & PR1 & PR2). unfold fcol0, fcol1, fcol2 in *. rewrite PQ0 in Dq0. rewrite PQ1 in Dq1. rewrite PQ2 in Dq2. rewrite PR0 in Dr0. rewrite PR1 in Dr1. rewrite PR2 in Dr2.
  set (R := mreal r) in *. assert (ZR : B2R (o_zero : F) = 0) by reflexivity.
  assert (R10 : m10 R = 0) by (unfold R, mreal; cbn [m10]; rewrite Z10; exact ZR). assert (R20 : m20 R = 0) by (unfold R, mreal; cbn [m20]; rewrite Z20; exact ZR). assert (R21 : m21 R = 0) by (unfold R, mreal; cbn [m21]; rewrite Z21; exact ZR).
  assert (h : 1140 * u * (1.0001 * k) <= 1.4e-13 * k).
  { apply Rle_trans with (1140 * 1.12e-16 * (1.0001 * k)); [|lra]. apply Rmult_le_compat; lra. }
  assert (AR : appr (mm W R) B (4.2e-13 * k)).
  { rewrite <- (WtW W B OW). apply appr_mm_l; [exact OW|]. replace (4.2e-13 * k) with (3 * (1.4e-13 * k)) by lra. apply entries_appr. destruct (mcol_mm (mtr W) B) as (C0 & C1 & C2).
    apply cols_entries; rewrite ?C0, ?C1, ?C2; (eapply Rle_trans; [eassumption|exact h]). }
  assert (A0 : appr (mm W R) B0 (7e-12 * k)). { eapply appr_le; [|eapply appr_trans; [exact AR|exact AB]]. lra. }
  pose proof (bnd_appr _ _ _ _ BM (appr_sym _ _ _ A0)) as BW.
  apply (bnd_le _ _ (1.0001 * k)) in BW; [|lra].
  destruct (cols_norm_most _ _ BW) as (W0 & W1 & W2). destruct (cols_norm_most _ _ BM) as (W3 & W4 & W5). destruct (appr_cols _ _ _ A0) as (T0 & T1 & T2). destruct (appr_cols _ _ _ AR) as (T3 & T4 & _).
  destruct (cols_off M Q D SO) as (O01 & O02 & O12). fold B0 in O01, O02, O12.
  destruct (upper_dots W R OW R10 R20 R21) as (N0 & N1 & _ & N01 & N02 & N12).
  set (d := (8 * e + 5e-11) * (k * k) + 1.5e-11 * (k * k)).
  assert (NB : forall x y x' y', vdist x' x <= 7e-12 * k -> vdist y' y <= 7e-12 * k -> vlen x <= k -> vlen y' <= 1.0001 * k -> Rabs (vdot x y) <= D -> Rabs (vdot x' y') <= d).
  { intros x y x' y' H1 H2 H3 H4 H5. pose proof (dot_near x y x' y' (7e-12 * k) (1.0001 * k) H1 H2 ltac:(lra) H4) as H6. replace (vdot x' y') with ((vdot x' y' - vdot x y) + vdot x y) by ring. eapply Rle_trans; [apply Rabs_triang|]. unfold d. lra. }
  assert (D01 : Rabs (m00 R * m01 R) <= d) by (rewrite <- N01; apply (NB _ _ _ _ T0 T1); assumption).
  assert (D02 : Rabs (m00 R * m02 R) <= d) by (rewrite <- N02; apply (NB _ _ _ _ T0 T2); assumption).
  assert (D12 : Rabs (m01 R * m02 R + m11 R * m12 R) <= d) by (rewrite <- N12; apply (NB _ _ _ _ T1 T2); assumption).
  assert (NC : forall x x', vdist x' x <= 4.2e-13 * k -> vlen x <= 1.0001 * k -> vlen x' <= 1.0001 * k -> 0.244 * (k * k) <= vdot x x -> 0.24 * (k * k) <= vdot x' x').
  { intros x x' H1 H2 H3 H4. pose proof (dot_near x x x' x' (4.2e-13 * k) (1.0001 * k) H1 H1 H2 H3) as H6. apply Rabs_le_inv in H6. lra. }
  assert (L2 : 0.24 * (k * k) <= m00 R * m00 R) by (rewrite <- N0; apply (NC _ _ T3); assumption).
  assert (L3 : 0.24 * (k * k) <= m01 R * m01 R + m11 R * m11 R) by (rewrite <- N1; apply (NC _ _ T4); assumption).
  assert (dk : d <= 8.085e-7 * (k * k)). { unfold d. assert (e * (k * k) <= 1.01e-7 * (k * k)) by (apply Rmult_le_compat_r; lra). lra. }
  pose proof (upper_two (m00 R) (m01 R) (m02 R) (m11 R) (m12 R) k d K0 ltac:(unfold R, mreal; cbn [m00]; lra) ltac:(unfold R, mreal; cbn [m11]; lra) dk D01 D02 D12 L2 L3) as UC.
  exists q, (m33_transpose v), W, (mtr Q). split; [reflexivity|]. split; [reflexivity|]. split; [exact OW|]. split; [now apply orthogonal_mtr|].
  split. { apply entries_near; [exact FQ|]. assert (entries_le (1780 * u) (mreal q) W) as EQ by (apply cols_entries; assumption). unfold entries_le in *. lra. }
  split. { apply appr_entries in AQ. apply entries_near.
    - pose proof (mfin_fl v FV) as FV'. unfold fl in FV'. destruct v as [v0 v1 v2 v3 v4 v5 v6 v7 v8]. unfold m33_transpose. cbn [m00 m01 m02 m10 m11 m12 m20 m21 m22] in *. apply mfin_of; cbn [m00 m01 m02 m10 m11 m12 m20 m21 m22]; tauto.
    - unfold entries_le in *. destruct v as [v0 v1 v2 v3 v4 v5 v6 v7 v8]. unfold m33_transpose, mtr, mreal in *. cbn [m00 m01 m02 m10 m11 m12 m20 m21 m22] in *. lra. }
  cbn [svd_s]. split; [split; [exact Fr00|split; [exact Fr11|exact Fr22]]|]. cbn [vx vy vz]. split; [lra|]. split; [lra|]. split; [lra|].
  assert (AF : appr (mm (mm W (mdiag (mkV3 (m00 R) (m11 R) (m22 R)))) (mtr Q)) M (2.87e-6 * k + 7e-12 * k)).
  { eapply appr_trans; [apply (strict_upper_frob W R (mtr Q)); try eassumption; [now apply orthogonal_mtr|reflexivity|lra]|].
    replace M with (mm B0 (mtr Q)); [apply appr_mm_r; [now apply orthogonal_mtr|exact A0]|]. unfold B0. destruct OQ as (_ & OQ). rewrite <- mm_assoc, OQ, mm_I_r. reflexivity. }
  apply (appr_le _ _ _ (2.9e-6 * k)) in AF; [exact AF|]. lra.
Qed.

(** ** Ordering the columns *)
Definition nf (r : F) (x d : R) : Prop := is_finite r = true /\ Rabs (B2R r - x) <= d.
Lemma norms_f (b : M33 F) k : mfin b -> bnd (mreal b) k -> bpow radix2 (2 - 1024) <= k * k -> 4 * (k * k) < bpow radix2 1024 ->
  exists r0 r1 r2, col_norm_squared b 0 = Some r0 /\ col_norm_squared b 1 = Some r1 /\ col_norm_squared b 2 = Some r2 /\
    nf r0 (cn0 (mreal b)) (27 * u * (k * k)) /\ nf r1 (cn1 (mreal b)) (27 * u * (k * k)) /\ nf r2 (cn2 (mreal b)) (27 * u * (k * k)).
Proof.
  intros FB BB T BG. destruct (gram_f gsin gcos b k FB BB T BG) as (FS & _ & AS). apply appr_entries in AS. apply mfin_fl in FS. destruct FS as (F0 & _ & _ & _ & F1 & _ & _ & _ & F2).
  destruct AS as (A0 & _ & _ & _ & A1 & _ & _ & _ & A2). exists (m00 (m33_mul (m33_transpose b) b)), (m11 (m33_mul (m33_transpose b) b)), (m22 (m33_mul (m33_transpose b) b)).
  assert (C : m00 (mm (mtr (mreal b)) (mreal b)) = cn0 (mreal b) /\ m11 (mm (mtr (mreal b)) (mreal b)) = cn1 (mreal b) /\ m22 (mm (mtr (mreal b)) (mreal b)) = cn2 (mreal b)).
  { generalize (mreal b). intros []. unfold cn0, cn1, cn2. repeat split; ru_spec; ring. }
  destruct C as (C0 & C1 & C2). rewrite C0 in A0. rewrite C1 in A1. rewrite C2 in A2.
  split; [destruct b; reflexivity|]. split; [destruct b; reflexivity|]. split; [destruct b; reflexivity|]. 
  split; [split; [apply F0|exact A0]|]. split; [split; [apply F1|exact A1]|]. split; [apply F2|exact A2].
Qed.
Lemma sort_pair (a b : F) : is_finite a = true -> is_finite b = true -> let s := if o_ltb a b then (b, a) else (a, b) in
  B2R (snd s) <= B2R (fst s) /\ B2R a <= B2R (fst s) /\ (forall z, B2R a <= z -> B2R b <= z -> B2R (fst s) <= z).
Proof.
  intros FA FB. pose proof (fl_ltb 53 1024 f64_prec f64_emax gsin gcos _ _ _ _ (fin_fl _ FA) (fin_fl _ FB)) as H. destruct (o_ltb a b).
  - destruct H as (H & _). specialize (H eq_refl). cbn [fst snd]. repeat split; intros; lra.
  - destruct H as (_ & H). cbn [fst snd]. assert (B2R b <= B2R a) by (apply Rnot_lt_le; intros G; specialize (H G); discriminate). repeat split; intros; lra.
Qed.
Lemma cinv_step2 M a g D b v i j p :
  (forall m, mfin m -> exists m' : M33 F, swap_neg_columns m i j = Some m' /\ mfin m' /\ mreal m' = mm (mreal m) p) -> orthogonal p ->
  (forall s w d, solved s w d -> solved s (mm w p) d) -> forall less : bool, cinv M a g D b v ->
  exists b' v', order_columns less i j b v = Some (b', v') /\ cinv M a g D b' v' /\ mreal b' = if less then mm (mreal b) p else mreal b.
Proof.
  intros SW OP SP less (Q & (FV & OQ & AQ) & SO & FB & AB). unfold order_columns. destruct less.
  - destruct (SW b FB) as (b' & -> & FB' & VB). destruct (SW v FV) as (v' & -> & FV' & VV). cbn [bind]. exists b', v'. split; [reflexivity|]. split; [|exact VB].
    exists (mm Q p). split; [split; [exact FV'|split; [now apply orthogonal_mm|rewrite VV; now apply appr_mm_r]]|]. split; [now apply SP|]. split; [exact FB'|]. rewrite VB, mm_assoc. now apply appr_mm_r.
  - exists b, v. split; [reflexivity|]. split; [|reflexivity]. exists Q. split; [split; [exact FV|split; assumption]|]. split; [exact SO|]. split; assumption.
Qed.
(** the computed norms, as they are carried along *)
Definition norms (b : M33 F) (r0 r1 r2 : F) (d : R) : Prop := nf r0 (cn0 (mreal b)) d /\ nf r1 (cn1 (mreal b)) d /\ nf r2 (cn2 (mreal b)) d.
Lemma ord01 M a g D b v r0 r1 r2 d : cinv M a g D b v -> norms b r0 r1 r2 d ->
  exists b' v', order_columns (o_ltb r0 r1) 0 1 b v = Some (b', v') /\ cinv M a g D b' v' /\ let s := if o_ltb r0 r1 then (r1, r0) else (r0, r1) in norms b' (fst s) (snd s) r2 d.
Proof.
  intros CI (N0 & N1 & N2). destruct (cinv_step2 M a g D b v 0 1 p01 (swap01_f gsin gcos) p01_orth solved_01 (o_ltb r0 r1) CI) as (b' & v' & E & CI' & H). exists b', v'. split; [exact E|]. split; [exact CI'|].
  destruct (cn_01 (mreal b)) as (C0 & C1 & C2). unfold norms. destruct (o_ltb r0 r1); cbn [fst snd]; rewrite H; [rewrite C0, C1, C2|]; auto.
Qed.
Lemma ord02 M a g D b v r0 r1 r2 d : cinv M a g D b v -> norms b r0 r1 r2 d ->
  exists b' v', order_columns (o_ltb r0 r2) 0 2 b v = Some (b', v') /\ cinv M a g D b' v' /\ let s := if o_ltb r0 r2 then (r2, r0) else (r0, r2) in norms b' (fst s) r1 (snd s) d.
Proof.
  intros CI (N0 & N1 & N2). destruct (cinv_step2 M a g D b v 0 2 p02 (swap02_f gsin gcos) p02_orth solved_02 (o_ltb r0 r2) CI) as (b' & v' & E & CI' & H). exists b', v'. split; [exact E|]. split; [exact CI'|].
  destruct (cn_02 (mreal b)) as (C0 & C1 & C2). unfold norms. destruct (o_ltb r0 r2); cbn [fst snd]; rewrite H; [rewrite C0, C1, C2|]; auto.
Qed.
Lemma ord12 M a g D b v r0 r1 r2 d : cinv M a g D b v -> norms b r0 r1 r2 d ->
  exists b' v', order_columns (o_ltb r1 r2) 1 2 b v = Some (b', v') /\ cinv M a g D b' v' /\ let s := if o_ltb r1 r2 then (r2, r1) else (r1, r2) in norms b' r0 (fst s) (snd s) d.
Proof.
  intros CI (N0 & N1 & N2). destruct (cinv_step2 M a g D b v 1 2 p12 (swap12_f gsin gcos) p12_orth solved_12 (o_ltb r1 r2) CI) as (b' & v' & E & CI' & H). exists b', v'. split; [exact E|]. split; [exact CI'|].
  destruct (cn_12 (mreal b)) as (C0 & C1 & C2). unfold norms. destruct (o_ltb r1 r2); cbn [fst snd]; rewrite H; [rewrite C0, C1, C2|]; auto.
Qed.
Lemma norms_finite b r0 r1 r2 d : norms b r0 r1 r2 d -> is_finite r0 = true /\ is_finite r1 = true /\ is_finite r2 = true.
Proof. intros ((A & _) & (B & _) & (C & _)). auto. Qed.
(** two perpendicular columns *)
Lemma cols_pair M Q c : orthogonal Q -> pairs_at_least c M -> c <= cn1 (mm M Q) + cn2 (mm M Q).
Proof.
  intros OQ P. destruct (orthogonal_cols Q OQ) as (_ & V1 & V2 & _ & _ & V12). destruct (mcol_mm M Q) as (_ & C1 & C2). unfold cn1, cn2. rewrite C1, C2, <- !vlen_sq.
  specialize (P (mcol1 Q) (mcol2 Q) (vlen_1 _ V1) (vlen_1 _ V2) V12). simpl in P. rewrite !Rmult_1_r in P. exact P.
Qed.

Lemma svd_p (m : M33 F) k eps e : mfin m -> at_most k (mreal m) -> bpow radix2 (- (400)) <= k <= bpow radix2 400 -> pairs_at_least (49 / 100 * k ^ 2) (mreal m) ->
  flr eps e -> 0.99e-7 <= e <= 1.01e-7 ->
  exists d, svd_ordered3 m true true eps 100 = Some (Some d) /\ (exists fu fvt, svd_u d = Some fu /\ svd_vt d = Some fvt) /\
    decomposes64 (2.9e-6 * k) 1e-11 m d.
Proof.
  intros FM AM SK PA FE E1. unfold svd_ordered3.
  pose proof u64_le as U. pose proof (bpow_gt_0 radix2 (- (53))) as U0. pose proof (bpow_gt_0 radix2 (- (400))) as S0. assert (K0 : 0 < k) by lra.
  assert (SK5 : bpow radix2 (- (500)) <= k <= bpow radix2 500). { split; [apply Rle_trans with (bpow radix2 (- (400))); [apply bpow_le; lia|lra]|apply Rle_trans with (bpow radix2 400); [lra|apply bpow_le; lia]]. }
  destruct (eigen_ok gsin gcos m k eps e FM AM SK5 FE E1) as (ev & v & -> & Q & QN & SO).
  { intros x. replace (0.49 * (k * k)) with (49 / 100 * k ^ 2) by (simpl; lra). now apply pairs_trace. }
  cbn [bind].
  pose proof (qnear_entries _ _ _ QN ltac:(lra)) as QE. pose proof (bnd_entries _ _ AM) as EM. pose proof QN as (FV & OQ & AQ).
  assert (B4 : bpow radix2 (2 - 1024) <= k * 2 /\ 4 * (k * 2) < bpow radix2 1024).
  { split; [apply Rle_trans with (bpow radix2 (- (400))); [apply bpow_le; lia|lra]|]. apply Rle_lt_trans with (bpow radix2 3 * bpow radix2 400); [simpl (bpow radix2 3); lra|]. rewrite <- bpow_plus. apply bpow_lt. lia. }
  destruct (prod_f gsin gcos m v k 2 FM FV EM QE (proj1 B4) (proj2 B4)) as (FB & EB & _). set (b := m33_mul m v) in *. clearbody b.
  assert (UK : u * k <= 1.12e-16 * k) by (apply Rmult_le_compat_r; lra).
  assert (CI : cinv (mreal m) 6e-12 (6.1e-12 * k) ((8 * e + 5e-11) * (k * k)) b v).
  { exists Q. split; [exact QN|]. split; [exact SO|]. split; [exact FB|]. apply entries_appr in EB.
    eapply appr_le; [|eapply appr_trans; [exact EB|]].
    2: { intros x. unfold vdist. rewrite !mv_mm, <- mv_vsub. eapply Rle_trans; [apply AM|]. instantiate (1 := k * 6e-12). rewrite Rmult_assoc. apply Rmult_le_compat_l; [lra|]. apply AQ. }
    lra. }
  assert (BB : bnd (mreal b) (1.0001 * k)).
  { destruct CI as (Q' & (_ & OQ' & _) & _ & _ & AB). eapply bnd_le; [apply (bnd_appr _ _ _ _ (mm_bnd_orth _ Q' k OQ' AM) (appr_sym _ _ _ AB))|lra]. }
  destruct (sized_k k SK5) as (TK & GK). assert (KK : 0 < k * k) by (apply Rmult_lt_0_compat; exact K0).
  destruct (norms_f b (1.0001 * k) FB BB ltac:(lra) ltac:(lra)) as (r0 & r1 & r2 & -> & -> & -> & NF). cbn [bind].
  assert (N0 : norms b r0 r1 r2 (1e-14 * (k * k))).
  { assert (27 * u * (1.0001 * k * (1.0001 * k)) <= 1e-14 * (k * k)). { replace (27 * u * (1.0001 * k * (1.0001 * k))) with (u * (27.00540027 * (k * k))) by lra. apply Rle_trans with (1.12e-16 * (27.00540027 * (k * k))); [apply Rmult_le_compat_r; lra|lra]. }
    unfold norms, nf in *. repeat split; try apply NF; (eapply Rle_trans; [apply NF|assumption]). }
  clear NF. destruct (norms_finite _ _ _ _ _ N0) as (F0 & F1 & F2).
  destruct (ord01 _ _ _ _ b v r0 r1 r2 _ CI N0) as (b1 & v1 & -> & CI1 & N1). cbn [bind fst snd]. cbv zeta in N1. pose proof (sort_pair r0 r1 F0 F1) as P1. cbv zeta in P1.
  destruct (if o_ltb r0 r1 then (r1, r0) else (r0, r1)) as (s0 & s1). cbn [fst snd] in *. destruct (norms_finite _ _ _ _ _ N1) as (G0 & G1 & _).
  destruct (ord02 _ _ _ _ b1 v1 s0 s1 r2 _ CI1 N1) as (b2 & v2 & -> & CI2 & N2). cbn [bind fst snd]. cbv zeta in N2. pose proof (sort_pair s0 r2 G0 F2) as P2. cbv zeta in P2.
  destruct (if o_ltb s0 r2 then (r2, s0) else (s0, r2)) as (t0 & t2). cbn [fst snd] in *. destruct (norms_finite _ _ _ _ _ N2) as (H0 & _ & H2).
  destruct (ord12 _ _ _ _ b2 v2 t0 s1 t2 _ CI2 N2) as (b3 & v3 & -> & CI3 & N3). cbn [bind fst snd]. cbv zeta in N3. pose proof (sort_pair s1 t2 G1 H2) as P3. cbv zeta in P3.
  destruct (if o_ltb s1 t2 then (t2, s1) else (s1, t2)) as (t1 & t2'). cbn [fst snd] in *.
  destruct P1 as (P1a & P1b & _), P2 as (P2a & P2b & P2c), P3 as (P3a & P3b & P3c). specialize (P3c (B2R t0) ltac:(lra) ltac:(lra)).
  eexists. split; [reflexivity|]. split; [do 2 eexists; split; reflexivity|].
  assert (CC : 0.49 * (k * k) - 2.6e-11 * (k * k) <= cn1 (mreal b3) + cn2 (mreal b3)).
  { destruct CI3 as (Q' & (_ & OQ' & _) & _ & _ & AB). pose proof (cols_pair _ Q' _ OQ' PA) as CP. replace (49 / 100 * k ^ 2) with (0.49 * (k * k)) in CP by (simpl; lra).
    pose proof (mm_bnd_orth _ Q' k OQ' AM) as BM. pose proof (bnd_appr _ _ _ _ BM (appr_sym _ _ _ AB)) as BB3. apply (bnd_le _ _ (1.0001 * k)) in BB3; [|lra].
    destruct (cols_norm_most _ _ BM) as (_ & X1 & X2). destruct (cols_norm_most _ _ BB3) as (_ & Y1 & Y2). destruct (appr_cols _ _ _ AB) as (_ & T1 & T2).
    pose proof (dot_near _ _ _ _ (6.1e-12 * k) (1.0001 * k) T1 T1 ltac:(lra) Y1) as D1. pose proof (dot_near _ _ _ _ (6.1e-12 * k) (1.0001 * k) T2 T2 ltac:(lra) Y2) as D2.
    unfold cn1, cn2 in *. apply Rabs_le_inv in D1. apply Rabs_le_inv in D2. lra. }
  destruct N3 as ((_ & A0) & (_ & A1) & (_ & A2)). apply Rabs_le_inv in A0. apply Rabs_le_inv in A1. apply Rabs_le_inv in A2.
  apply (factors_p m b3 v3 k e ((8 * e + 5e-11) * (k * k)) FM AM SK E1); [|lra|exact CI3|lra|lra]. apply Rmult_le_pos; [lra|apply sqn].
Qed.
End F64.

Lemma C116_lemma (gsin gcos : f64 -> f64) (m : M33 f64) k : mat_finite m -> at_most k (mreal m) ->
  bpow radix2 (- (400)) <= k <= bpow radix2 400 -> pairs_at_least (49 / 100 * k ^ 2) (mreal m) ->
  exists d, @svd_ordered3 f64 (f64_ops gsin gcos) m true true (@lit_1em7 f64 (f64_ops gsin gcos)) 100 = Some (Some d) /\
    (exists fu fvt, svd_u d = Some fu /\ svd_vt d = Some fvt) /\
    decomposes64 (29 / 10 ^ 7 * k) (1 / 10 ^ 11) m d.
Proof.
  intros FM AM SK PA. destruct (lit_1em7_f gsin gcos) as (e & FE & E1).
  assert (FM' : mfin m) by (unfold mat_finite in FM; apply mfin_of; tauto).
  destruct (svd_p gsin gcos m k (@lit_1em7 f64 (f64_ops gsin gcos)) e FM' AM SK PA FE E1) as (d & ED & UV & H). exists d. split; [exact ED|]. split; [exact UV|].
  replace (29 / 10 ^ 7) with 2.9e-6 by lra. replace (1 / 10 ^ 11) with 1e-11 by lra. exact H.
Qed.
Lemma C116a_lemma (gsin gcos : f64 -> f64) (m : M33 f64) k lam : mat_finite m -> at_most k (mreal m) -> at_least lam (mreal m) -> 0 < lam -> k <= 10 ^ 9 * lam ->
  bpow radix2 (- (400)) <= k <= bpow radix2 400 -> pairs_at_least (49 / 100 * k ^ 2) (mreal m) ->
  exists d, @svd_ordered3 f64 (f64_ops gsin gcos) m true true (@lit_1em7 f64 (f64_ops gsin gcos)) 100 = Some (Some d) /\
    decomposes64 (29 / 10 ^ 7 * k) (1 / 10 ^ 11) m d.
Proof.
  intros FM AM AL L0 KL SK PA. destruct (C116_lemma gsin gcos m k FM AM SK PA) as (d & ED & _ & H). exists d. split; [exact ED|exact H].
Qed.
Lemma C116b_lemma (gsin gcos : f64 -> f64) (m : M33 f64) k : mat_finite m -> at_most k (mreal m) ->
  bpow radix2 (- (400)) <= k <= bpow radix2 400 -> pairs_at_least (49 / 100 * k ^ 2) (mreal m) ->
  exists d fu fvt, @svd_ordered3 f64 (f64_ops gsin gcos) m true true (@lit_1em7 f64 (f64_ops gsin gcos)) 100 = Some (Some d) /\ svd_u d = Some fu /\ svd_vt d = Some fvt.
Proof.
  intros FM AM SK PA. destruct (C116_lemma gsin gcos m k FM AM SK PA) as (d & ED & (fu & fvt & E1 & E2) & _). exists d, fu, fvt. auto.
Qed.

