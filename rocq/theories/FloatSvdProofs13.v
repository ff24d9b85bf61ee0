(** * FloatSvdProofs13.v - the singular value decomposition in double precision, continued (C110) *)

From Coq Require Import ZArith Reals List Bool Lra Lia Psatz.
From Flocq Require Import Core BinarySingleNaN.
From Verif Require Import Scalar Linalg Householder RayIntersection SymEigen Spec SpecGeom SpecIsect SpecFloatErr SpecFloatIsect SpecSvd SpecFloatSvd RealBase VecLemmas ExtrinsicsProofs IsectBase IsectProofs SpectralProofs TriProofs FloatBase FloatRound FloatErrProofs FloatApprox FloatDirProofs FloatIsectProofs4 FloatQRProofs FloatQRProofs2 QRProofs
  SymEigenProofs SymEigenProofs2 SymEigenProofs3 SymEigenProofs4 SymEigenProofs5 SymEigenProofs6 FloatSvdProofs FloatSvdProofs2 FloatSvdProofs3 FloatSvdProofs4 FloatSvdProofs5 FloatSvdProofs6 FloatSvdProofs7 FloatSvdProofs8 FloatSvdProofs9 FloatSvdProofs10 FloatSvdProofs11 FloatSvdProofs12.
Import ListNotations.
Local Open Scope R_scope.
Local Notation Z9 := (mkM33 0 0 0 0 0 0 0 0 0).

Lemma cols_norm_least m lam : at_least lam m -> lam <= vlen (mcol0 m) /\ lam <= vlen (mcol1 m) /\ lam <= vlen (mcol2 m).
Proof.
  intros A. destruct (mv_cols m) as (<- & <- & <-). destruct unit_len as (U0 & U1 & U2). pose proof (A (mkV3 1 0 0)) as A0. pose proof (A (mkV3 0 1 0)) as A1. pose proof (A (mkV3 0 0 1)) as A2. rewrite U0 in A0. rewrite U1 in A1. rewrite U2 in A2. lra.
Qed.
Lemma cols_norm_most m k : bnd m k -> vlen (mcol0 m) <= k /\ vlen (mcol1 m) <= k /\ vlen (mcol2 m) <= k.
Proof.
  intros A. destruct (mv_cols m) as (<- & <- & <-). destruct unit_len as (U0 & U1 & U2). pose proof (A (mkV3 1 0 0)) as A0. pose proof (A (mkV3 0 1 0)) as A1. pose proof (A (mkV3 0 0 1)) as A2. rewrite U0 in A0. rewrite U1 in A1. rewrite U2 in A2. lra.
Qed.
Lemma mm_bnd_orth m q k : orthogonal q -> bnd m k -> bnd (mm m q) k.
Proof. intros O B v. rewrite mv_mm. rewrite <- (orthogonal_len q v) by exact O. apply B. Qed.
Lemma mm_least_orth m q k : orthogonal q -> at_least k m -> at_least k (mm m q).
Proof. intros O B v. rewrite mv_mm. rewrite <- (orthogonal_len q v) by exact O. apply B. Qed.
Lemma mcol_mm a b : mcol0 (mm a b) = mv a (mcol0 b) /\ mcol1 (mm a b) = mv a (mcol1 b) /\ mcol2 (mm a b) = mv a (mcol2 b).
Proof. destruct a as [a0 a1 a2 a3 a4 a5 a6 a7 a8], b as [b0 b1 b2 b3 b4 b5 b6 b7 b8]. split; [|split]; vring. Qed.
Lemma WtW w m : orthogonal w -> mm w (mm (mtr w) m) = m.
Proof. intros (_ & O). now rewrite mm_assoc, O, mm_I_l. Qed.

Section F64.
Variables gsin gcos : binary_float 53 1024 -> binary_float 53 1024.
Local Notation F := (binary_float 53 1024).
Local Hint Extern 0 (Ops (binary_float 53 1024)) => exact (B_ops 53 1024 f64_prec f64_emax gsin gcos) : typeclass_instances.
Local Notation flr := (fl 53 1024).
Local Notation u := (bpow radix2 (- (53))).

Lemma lfin3 (a b c : F) : lfin 53 1024 [a; b; c] -> is_finite a = true /\ is_finite b = true /\ is_finite c = true.
Proof. intros H. inversion H as [|? ? H1 H2]; subst. inversion H2 as [|? ? H3 H4]; subst. inversion H4; subst. auto. Qed.

Lemma factors_f (m b v : M33 F) k lam e D : mfin m -> at_most k (mreal m) -> at_least lam (mreal m) -> 0 < lam -> bpow radix2 (- (400)) <= k <= bpow radix2 400 ->
  0.99e-7 <= e <= 1.01e-7 -> 100 * e * (k * k) <= lam * lam -> 0 <= D -> D <= (8 * e + 5e-11) * (k * k) -> cinv (mreal m) 6e-12 (6.1e-12 * k) D b v ->
  let qr := qr_new (cols_of_m33 b) in
  let sigma i := o_abs (nth i (qr_diag qr) (o_zero : F)) in
  decomposes64 (26 * e * (k * k) / lam) 1e-11 m (mkSVD (Some (qr_q qr)) (mkV3 (sigma 0%nat) (sigma 1%nat) (sigma 2%nat)) (Some (m33_transpose v))).
Proof.
  intros FM AM AL L0 SK E1 CO D0 DK (Q & (FV & OQ & AQ) & SO & FB & AB) qr sigma.
  pose proof u64_le as U. pose proof (bpow_gt_0 radix2 (- (53))) as U0. pose proof (bpow_gt_0 radix2 (- (400))) as S0. assert (K0 : 0 < k) by lra.
  assert (KL : k <= 320 * lam).
  { apply Rsqr_incr_0_var; [|lra]. unfold Rsqr. assert (9.9e-6 * (k * k) <= 100 * e * (k * k)) by (apply Rmult_le_compat_r; [apply sqn|lra]). lra. }
  set (M := mreal m) in *. pose proof (mm_bnd_orth M Q k OQ AM) as BM. pose proof (mm_least_orth M Q lam OQ AL) as LM.
  assert (LK : lam <= k). { destruct (cols_norm_least _ _ LM) as (X & _). destruct (cols_norm_most _ _ BM) as (Y & _). lra. }
  set (B0 := mm M Q) in *. set (B := mreal b) in *.
  pose proof (least_appr _ _ _ _ LM AB) as LB. pose proof (bnd_appr _ _ _ _ BM (appr_sym _ _ _ AB)) as BB.
  assert (LB' : at_least (0.9999 * lam) B). { intros x. eapply Rle_trans; [|apply LB]. apply Rmult_le_compat_r; [apply vlen_nonneg|]. lra. }
  apply (bnd_le _ _ (1.0001 * k)) in BB; [|lra].
  assert (IN : indep 0.003 (mcol0 B) (mcol1 B) (mcol2 B)).
  { apply (cols_indep B (1.0001 * k) (0.9999 * lam)); [lra|exact BB|exact LB'|]. assert (9.9e-6 * (k * k) <= 100 * e * (k * k)) by (apply Rmult_le_compat_r; [apply sqn|lra]). pose proof (sqn k). lra. }
  destruct (cols_norm_least _ _ LB') as (X0 & X1 & X2). destruct (cols_norm_most _ _ BB) as (Y0 & Y1 & Y2).
  pose proof (mfin_fl b FB) as FB'. unfold fl in FB'.
  destruct (qr_app 53 1024 f64_prec f64_emax gsin gcos ltac:(lia) ltac:(lia) [m00 b; m10 b; m20 b] [m01 b; m11 b; m21 b] [m02 b; m12 b; m22 b] 0.003 500) as (W & OW & H); try reflexivity; try lia.
  { repeat (apply Forall_cons; [tauto|]). constructor. } { repeat (apply Forall_cons; [tauto|]). constructor. } { repeat (apply Forall_cons; [tauto|]). constructor. }
  { lra. } { exact IN. }
  { assert (S1 : bpow radix2 (- (500)) <= 1e-20 * bpow radix2 (- (400))). { replace (- (500))%Z with (-100 + - (400))%Z by lia. rewrite bpow_plus. apply Rmult_le_compat_r; [lra|]. simpl. lra. }
    assert (S2 : 1e20 * bpow radix2 400 <= bpow radix2 500). { replace 500%Z with (100 + 400)%Z by lia. rewrite bpow_plus. apply Rmult_le_compat_r; [apply bpow_ge_0|]. simpl. lra. }
    pose proof (bpow_gt_0 radix2 400). destruct (pad_col gsin gcos b) as (P0 & P1 & P2).
    intros x [<-|[<-|[<-|[]]]]; rewrite ?P0, ?P1, ?P2; fold B; lra. }
  cbv zeta in H. change ([[m00 b; m10 b; m20 b]; [m01 b; m11 b; m21 b]; [m02 b; m12 b; m22 b]]) with (cols_of_m33 b) in H. fold qr in H.
  destruct (pad_col gsin gcos b) as (P0 & P1 & P2). rewrite P0, P1, P2 in H. fold B in H.
  destruct H as ((_ & Fq0 & Dq0) & (_ & Fq1 & Dq1) & (_ & Fq2 & Dq2) & (_ & Fr0 & Dr0) & (_ & Fr1 & Dr1) & (_ & Fr2 & Dr2) & R0 & R1 & R2 & Z10 & Z20 & Z21).
  assert (SG : mkV3 (sigma 0%nat) (sigma 1%nat) (sigma 2%nat) = mkV3 (m00 (qr_r qr)) (m11 (qr_r qr)) (m22 (qr_r qr))) by reflexivity.
  rewrite SG. clear SG. clearbody sigma. set (r := qr_r qr) in *. set (q := qr_q qr) in *. clearbody qr r q.
  apply lfin3 in Fq0, Fq1, Fq2, Fr0, Fr1, Fr2. destruct Fq0 as (Fq00 & Fq10 & Fq20), Fq1 as (Fq01 & Fq11 & Fq21), Fq2 as (Fq02 & Fq12 & Fq22), Fr0 as (Fr00 & Fr10 & Fr20), Fr1 as (Fr01 & Fr11 & Fr21), Fr2 as (Fr02 & Fr12 & Fr22).
  assert (FQ : mfin q) by now apply mfin_of. assert (FR : mfin r) by now apply mfin_of.
  destruct (pad_col gsin gcos q) as (PQ0 & PQ1 & PQ2). destruct (pad_col gsin gcos r) as (PR0 & PR1 & PR2). unfold fcol0, fcol1, fcol2 in *. rewrite PQ0 in Dq0. rewrite PQ1 in Dq1. rewrite PQ2 in Dq2. rewrite PR0 in Dr0. rewrite PR1 in Dr1. rewrite PR2 in Dr2.
  set (R := mreal r) in *. assert (ZR : B2R (o_zero : F) = 0) by reflexivity.
  assert (R10 : m10 R = 0) by (unfold R, mreal; cbn [m10]; rewrite Z10; exact ZR). assert (R20 : m20 R = 0) by (unfold R, mreal; cbn [m20]; rewrite Z20; exact ZR). assert (R21 : m21 R = 0) by (unfold R, mreal; cbn [m21]; rewrite Z21; exact ZR).
  assert (h : forall x, x <= 1.0001 * k -> 0 <= x -> 1131 * u * x <= 1.4e-13 * k).
  { intros x Lx x0. apply Rle_trans with (1131 * 1.12e-16 * (1.0001 * k)); [|lra]. apply Rmult_le_compat; lra. }
  assert (AR : appr (mm W R) B (4.2e-13 * k)).
  { rewrite <- (WtW W B OW). apply appr_mm_l; [exact OW|]. replace (4.2e-13 * k) with (3 * (1.4e-13 * k)) by lra. apply entries_appr. destruct (mcol_mm (mtr W) B) as (C0 & C1 & C2).
    apply cols_entries; rewrite ?C0, ?C1, ?C2; (eapply Rle_trans; [eassumption|apply h; [assumption|apply vlen_nonneg]]). }
  assert (A0 : appr (mm W R) B0 (7e-12 * k)). { eapply appr_le; [|eapply appr_trans; [exact AR|exact AB]]. lra. }
  pose proof (least_appr _ _ _ _ LM A0) as LW. pose proof (bnd_appr _ _ _ _ BM (appr_sym _ _ _ A0)) as BW.
  assert (LW' : at_least (0.999 * lam) (mm W R)). { intros x. eapply Rle_trans; [|apply LW]. apply Rmult_le_compat_r; [apply vlen_nonneg|]. lra. }
  apply (bnd_le _ _ (1.0001 * k)) in BW; [|lra].
  destruct (cols_norm_least _ _ LW') as (V0 & V1 & _). destruct (cols_norm_most _ _ BW) as (W0 & W1 & W2). destruct (cols_norm_most _ _ BM) as (W3 & W4 & W5). destruct (appr_cols _ _ _ A0) as (T0 & T1 & T2).
  destruct (cols_off M Q D SO) as (O01 & O02 & O12). fold B0 in O01, O02, O12.
  destruct (upper_dots W R OW R10 R20 R21) as (N0 & N1 & _ & N01 & N02 & N12).
  set (d := (8 * e + 5e-11) * (k * k) + 1.5e-11 * (k * k)). assert (KK : 0 < k * k) by (apply Rmult_lt_0_compat; exact K0).
  assert (NB : forall x y x' y', vdist x' x <= 7e-12 * k -> vdist y' y <= 7e-12 * k -> vlen x <= k -> vlen y' <= 1.0001 * k -> Rabs (vdot x y) <= D -> Rabs (vdot x' y') <= d).
  { intros x y x' y' H1 H2 H3 H4 H5. pose proof (dot_near x y x' y' (7e-12 * k) (1.0001 * k) H1 H2 ltac:(lra) H4) as H6. replace (vdot x' y') with ((vdot x' y' - vdot x y) + vdot x y) by ring. eapply Rle_trans; [apply Rabs_triang|]. unfold d. lra. }
  assert (D01 : Rabs (m00 R * m01 R) <= d) by (rewrite <- N01; apply (NB _ _ _ _ T0 T1); assumption).
  assert (D02 : Rabs (m00 R * m02 R) <= d) by (rewrite <- N02; apply (NB _ _ _ _ T0 T2); assumption).
  assert (D12 : Rabs (m01 R * m02 R + m11 R * m12 R) <= d) by (rewrite <- N12; apply (NB _ _ _ _ T1 T2); assumption).
  assert (L2 : 0.999 * lam * (0.999 * lam) <= m00 R * m00 R) by (rewrite <- N0, <- vlen_sq; apply Rmult_le_compat; lra).
  assert (L3 : 0.999 * lam * (0.999 * lam) <= m01 R * m01 R + m11 R * m11 R) by (rewrite <- N1, <- vlen_sq; apply Rmult_le_compat; lra).
  assert (dk : d <= 8.001 * e * (k * k)). { unfold d. assert (0.99e-7 * (k * k) <= e * (k * k)) by (apply Rmult_le_compat_r; lra). lra. }
  assert (d0 : 0 <= d). { unfold d. apply Rplus_le_le_0_compat; apply Rmult_le_pos; lra. }
  pose proof (upper_cond (m00 R) (m01 R) (m02 R) (m11 R) (m12 R) (0.999 * lam) d ltac:(lra) d0 ltac:(lra) ltac:(unfold R, mreal; cbn [m00]; lra) ltac:(unfold R, mreal; cbn [m11]; lra) D01 D02 D12 L2 L3) as UC.
  exists q, (m33_transpose v), W, (mtr Q). split; [reflexivity|]. split; [reflexivity|]. split; [exact OW|]. split; [now apply orthogonal_mtr|].
  split. { apply entries_near; [exact FQ|]. assert (entries_le (1780 * u) (mreal q) W) as EQ by (apply cols_entries; assumption). unfold entries_le in *. lra. }
  split. { apply appr_entries in AQ. apply entries_near.
    - pose proof (mfin_fl v FV) as FV'. unfold fl in FV'. destruct v as [v0 v1 v2 v3 v4 v5 v6 v7 v8]. unfold m33_transpose. cbn [m00 m01 m02 m10 m11 m12 m20 m21 m22] in *. apply mfin_of; cbn [m00 m01 m02 m10 m11 m12 m20 m21 m22]; tauto.
    - unfold entries_le in *. destruct v as [v0 v1 v2 v3 v4 v5 v6 v7 v8]. unfold m33_transpose, mtr, mreal in *. cbn [m00 m01 m02 m10 m11 m12 m20 m21 m22] in *. lra. }
  cbn [svd_s]. split; [split; [exact Fr00|split; [exact Fr11|exact Fr22]]|]. cbn [vx vy vz]. split; [lra|]. split; [lra|]. split; [lra|].
  assert (AF : appr (mm (mm W (mdiag (mkV3 (m00 R) (m11 R) (m22 R)))) (mtr Q)) M (Rabs (m01 R) + Rabs (m02 R) + Rabs (m12 R) + 7e-12 * k)).
  { eapply appr_trans; [apply (strict_upper_bound W R (mtr Q)); try assumption; [now apply orthogonal_mtr|reflexivity]|].
    replace M with (mm B0 (mtr Q)); [apply appr_mm_r; [now apply orthogonal_mtr|exact A0]|]. unfold B0. destruct OQ as (_ & OQ). rewrite <- mm_assoc, OQ, mm_I_r. reflexivity. }
  apply (appr_le _ _ _ (26 * e * (k * k) / lam)) in AF; [exact AF|].
  set (z := k * k / lam). assert (KZ : k <= z). { unfold z. apply (Rmult_le_reg_r lam); [exact L0|]. replace (k * k / lam * lam) with (k * k) by (field; lra). apply Rmult_le_compat_l; lra. }
  replace (26 * e * (k * k) / lam) with (26 * e * z) by (unfold z; field; lra).
  assert (UC' : 32 / 10 * (d / (0.999 * lam)) <= 25.7 * e * z).
  { apply Rle_trans with (32 / 10 * (8.001 * e * (k * k) / (0.999 * lam))).
    - apply Rmult_le_compat_l; [lra|]. unfold Rdiv. apply Rmult_le_compat_r; [left; apply Rinv_0_lt_compat; lra|exact dk].
    - replace (32 / 10 * (8.001 * e * (k * k) / (0.999 * lam))) with (32 / 10 * 8.001 / 0.999 * (e * z)) by (unfold z; field; lra).
      assert (0 <= e * z) by (apply Rmult_le_pos; lra). lra. }
  assert (EZ : 0.99e-7 * z <= e * z) by (apply Rmult_le_compat_r; lra). lra.
Qed.

Lemma svd_f (m : M33 F) k lam eps e n : mfin m -> at_most k (mreal m) -> at_least lam (mreal m) -> 0 < lam -> bpow radix2 (- (400)) <= k <= bpow radix2 400 ->
  flr eps e -> 0.99e-7 <= e <= 1.01e-7 -> 100 * e * (k * k) <= lam * lam -> (n <= 100)%nat ->
  exists r, svd_ordered3 m true true eps n = Some r /\ forall d, r = Some d -> decomposes64 (26 * e * (k * k) / lam) 1e-11 m d.
Proof.
  intros FM AM AL L0 SK FE E1 CO N. unfold svd_ordered3.
  pose proof u64_le as U. pose proof (bpow_gt_0 radix2 (- (53))) as U0. pose proof (bpow_gt_0 radix2 (- (400))) as S0. assert (K0 : 0 < k) by lra.
  assert (SK5 : bpow radix2 (- (500)) <= k <= bpow radix2 500). { split; [apply Rle_trans with (bpow radix2 (- (400))); [apply bpow_le; lia|lra]|apply Rle_trans with (bpow radix2 400); [lra|apply bpow_le; lia]]. }
  destruct (eigen_f gsin gcos m k lam eps e n FM AM AL L0 SK5 FE E1 CO N) as (r & -> & HR). cbn [bind]. destruct r as [(ev & v)|]; [|eexists; split; [reflexivity|discriminate]].
  destruct (HR ev v eq_refl) as (Q & QN & SO). clear HR.
  pose proof (qnear_entries _ _ _ QN ltac:(lra)) as QE. pose proof (bnd_entries _ _ AM) as EM. pose proof QN as (FV & OQ & AQ).
  assert (B4 : bpow radix2 (2 - 1024) <= k * 2 /\ 4 * (k * 2) < bpow radix2 1024).
  { split; [apply Rle_trans with (bpow radix2 (- (400))); [apply bpow_le; lia|lra]|]. apply Rle_lt_trans with (bpow radix2 3 * bpow radix2 400); [simpl (bpow radix2 3); lra|]. rewrite <- bpow_plus. apply bpow_lt. lia. }
  destruct (prod_f gsin gcos m v k 2 FM FV EM QE (proj1 B4) (proj2 B4)) as (FB & EB & _). set (b := m33_mul m v) in *. clearbody b. cbn [bind].
  assert (UK : u * k <= 1.12e-16 * k) by (apply Rmult_le_compat_r; lra).
  assert (CI : cinv (mreal m) 6e-12 (6.1e-12 * k) ((8 * e + 5e-11) * (k * k)) b v).
  { exists Q. split; [exact QN|]. split; [exact SO|]. split; [exact FB|]. apply entries_appr in EB.
    eapply appr_le; [|eapply appr_trans; [exact EB|]].
    2: { intros x. unfold vdist. rewrite !mv_mm, <- mv_vsub. eapply Rle_trans; [apply AM|]. instantiate (1 := k * 6e-12). rewrite Rmult_assoc. apply Rmult_le_compat_l; [lra|]. apply AQ. }
    lra. }
  destruct (norm0_e b) as (r0 & ->). destruct (norm1_e b) as (r1 & ->). destruct (norm2_e b) as (r2 & ->). cbn [bind].
  match goal with |- context [order_columns ?l 0 1 b v] => destruct (cinv_step gsin gcos (mreal m) 6e-12 (6.1e-12 * k) _ b v 0 1 p01 (swap01_f gsin gcos) p01_orth solved_01 l CI) as (b1 & v1 & -> & CI1) end. cbn [bind fst snd].
  destruct (if o_ltb r0 r1 then (r1, r0) else (r0, r1)) as (s0 & s1).
  match goal with |- context [order_columns ?l 0 2 b1 v1] => destruct (cinv_step gsin gcos (mreal m) 6e-12 (6.1e-12 * k) _ b1 v1 0 2 p02 (swap02_f gsin gcos) p02_orth solved_02 l CI1) as (b2 & v2 & -> & CI2) end. cbn [bind fst snd].
  destruct (if o_ltb s0 r2 then (r2, s0) else (s0, r2)) as (t0 & t2).
  match goal with |- context [order_columns ?l 1 2 b2 v2] => destruct (cinv_step gsin gcos (mreal m) 6e-12 (6.1e-12 * k) _ b2 v2 1 2 p12 (swap12_f gsin gcos) p12_orth solved_12 l CI2) as (b3 & v3 & -> & CI3) end. cbn [bind fst snd].
  eexists. split; [reflexivity|]. intros d E. injection E as <-.
  apply (factors_f m b3 v3 k lam e ((8 * e + 5e-11) * (k * k)) FM AM AL L0 SK E1 CO); [|lra|exact CI3]. apply Rmult_le_pos; [lra|apply sqn].
Qed.
Lemma lit_1em7_f : exists e, flr (lit_1em7 : F) e /\ 0.99e-7 <= e <= 1.01e-7.
Proof.
  exists (B2R (lit_1em7 : F)). split; [split; reflexivity|]. cbv -[IZR Rdiv Rinv Rmult Ropp Rle]. split; lra.
Qed.
Lemma C110_lemma (m : M33 F) k lam n : mat_finite m -> at_most k (mreal m) -> at_least lam (mreal m) -> 0 < lam -> k <= 300 * lam ->
  bpow radix2 (- (400)) <= k <= bpow radix2 400 -> (n <= 100)%nat ->
  exists r, svd_ordered3 m true true lit_1em7 n = Some r /\ forall d, r = Some d -> decomposes64 (27 / 10 ^ 7 * (k / lam) * k) (1 / 10 ^ 11) m d.
Proof.
  intros FM AM AL L0 KL SK N. destruct lit_1em7_f as (e & FE & E1). pose proof (at_most_pos _ _ AM) as K0.
  assert (FM' : mfin m) by (unfold mat_finite in FM; apply mfin_of; tauto).
  assert (CO : 100 * e * (k * k) <= lam * lam). { pose proof (sqn lam); assert (k * k <= 300 * lam * (300 * lam)) by (apply Rmult_le_compat; lra). assert (100 * e * (k * k) <= 1.01e-5 * (k * k)) by (apply Rmult_le_compat_r; [apply sqn|lra]). lra. }
  destruct (svd_f m k lam lit_1em7 e n FM' AM AL L0 SK FE E1 CO N) as (r & ER & HR). exists r. split; [exact ER|]. intros d Ed. destruct (HR d Ed) as (fu & fvt & UU & Vt & H1 & H2 & H3 & H4 & H5 & H6 & H7 & H8 & H9 & H10 & H11).
  exists fu, fvt, UU, Vt. replace (1 / 10 ^ 11) with 1e-11 by lra. do 10 (split; [assumption|]).
  intros x. eapply Rle_trans; [apply H11|]. apply Rmult_le_compat_r; [apply vlen_nonneg|].
  replace (27 / 10 ^ 7 * (k / lam) * k) with (27 / 10 ^ 7 * (k * k / lam)) by (field; lra). replace (26 * e * (k * k) / lam) with (26 * e * (k * k / lam)) by (field; lra).
  apply Rmult_le_compat_r; [|lra]. apply Rmult_le_pos; [apply sqn|left; now apply Rinv_0_lt_compat].
Qed.
End F64.
