(** * FloatRQProofs5.v - rounding error of from_perspective_matrix: scale, centre, camera (C108) *)

From Coq Require Import ZArith Reals List Bool Lra Lia Psatz.
From Flocq Require Import Core BinarySingleNaN.
From Verif Require Import Scalar Linalg Householder Bundles Perspective Extrinsics Camera Spec SpecFloatErr SpecFloatRQ RealBase VecLemmas FromViewProofs SpectralProofs CamMatProofs FloatBase FloatRound FloatErrProofs FloatApprox FloatRigidProofs
  FloatDirProofs FloatViewProofs QRProofs JacProofs FloatIsectProofs3 FloatIsectProofs4 FloatQRProofs FloatQRProofs2 RQPerturbProofs FloatRQProofs FloatRQProofs2 FloatRQProofs3 FloatRQProofs4.
Import ListNotations.
Local Open Scope R_scope.

(** Cramer's rule *)
Lemma cramer_x m c : mdet (mcols (mcol1 m) (mcol2 m) (mv m (vopp c))) = - mdet m * vx c.
Proof. unfold mcols, mcol0, mcol1, mcol2. vring. Qed.
Lemma cramer_y m c : - mdet (mcols (mcol0 m) (mcol2 m) (mv m (vopp c))) = - mdet m * vy c.
Proof. unfold mcols, mcol0, mcol1, mcol2. vring. Qed.
Lemma cramer_z m c : mdet (mcols (mcol0 m) (mcol1 m) (mv m (vopp c))) = - mdet m * vz c.
Proof. unfold mcols, mcol0, mcol1, mcol2. vring. Qed.
Lemma mdet_sk s fx fy skew cx cy m : mdet (mscl s (mm (kmat fx fy skew cx cy) m)) = s * s * s * (fx * fy) * mdet m.
Proof. unfold mcols, mcol0, mcol1, mcol2. vring. Qed.
Lemma mv_rows m c : mv m (vopp c) = mkV3 (- vdot (mrow0 m) c) (- vdot (mrow1 m) c) (- vdot (mrow2 m) c).
Proof. unfold mcols, mcol0, mcol1, mcol2. vring. Qed.

(** a quotient of approximations *)
Lemma quot_err x w c xh wh P C e th : 0 < P -> 0 < th -> 0 <= C -> 0 <= e -> 1000 * e <= th -> w <> 0 -> Rabs w = th * P -> x = w * c -> Rabs c <= C ->
  Rabs (xh - x) <= e * (P * C) -> Rabs (wh - w) <= e * P -> wh <> 0 /\ Rabs (xh / wh - c) <= 2.01 * (e / th) * C.
Proof.
  intros P0 T0 C0 e0 ET W0 WP -> CC X W. assert (WL : 0.999 * (th * P) <= Rabs wh).
  { pose proof (Rabs_triang (w - wh) wh). replace (w - wh + wh) with w in * by ring. rewrite Rabs_minus_sym in W. assert (e * P <= 0.001 * (th * P)) by (replace (0.001 * (th * P)) with (0.001 * th * P) by ring; apply Rmult_le_compat_r; lra). lra. }
  assert (TP : 0 < th * P) by (now apply Rmult_lt_0_compat). assert (WN : wh <> 0) by (intros ->; rewrite Rabs_R0 in WL; lra). split; [exact WN|].
  replace (xh / wh - c) with ((xh - w * c - (wh - w) * c) / wh) by (field; exact WN). unfold Rdiv. rewrite Rabs_mult, Rabs_inv.
  assert (N : Rabs (xh - w * c - (wh - w) * c) <= 2 * e * (P * C)).
  { eapply Rle_trans; [apply Rabs_triang|]. rewrite Rabs_Ropp, Rabs_mult. assert (Rabs (wh - w) * Rabs c <= e * P * C) by (apply Rmult_le_compat; try apply Rabs_pos; assumption). lra. }
  assert (I : / Rabs wh <= / (0.999 * (th * P))) by (apply Rinv_le_contravar; lra).
  eapply Rle_trans; [apply Rmult_le_compat; [apply Rabs_pos| |exact N|exact I]|]. { apply Rlt_le, Rinv_0_lt_compat. lra. }
  replace (2 * e * (P * C) * / (0.999 * (th * P))) with (2 / 0.999 * (e * / th * C)) by (field; lra).
  replace (2.01 * (e * / th) * C) with (2.01 * (e * / th * C)) by ring. apply Rmult_le_compat_r; [|lra]. apply Rmult_le_pos; [|exact C0]. apply Rmult_le_pos; [exact e0|]. now apply Rlt_le, Rinv_0_lt_compat.
Qed.
Lemma inv_err s k e : s <> 0 -> 0 <= e <= 0.004 -> Rabs (k - s) <= e * Rabs s -> k <> 0 /\ Rabs (/ k - / s) <= 1.005 * e * / Rabs s /\ Rabs (/ k) <= 1.005 * / Rabs s.
Proof.
  intros S0 (e0 & e1) H. pose proof (Rabs_pos_lt s S0) as SP. pose proof (Rinv_0_lt_compat _ SP) as IP.
  assert (KL : (1 - e) * Rabs s <= Rabs k).
  { pose proof (Rabs_triang (s - k) k). replace (s - k + k) with s in * by ring. rewrite Rabs_minus_sym in H. lra. }
  assert (0.996 * Rabs s <= (1 - e) * Rabs s) by (apply Rmult_le_compat_r; lra).
  assert (KN : k <> 0) by (intros ->; rewrite Rabs_R0 in KL; lra). split; [exact KN|].
  assert (I : Rabs (/ k) <= 1.005 * / Rabs s).
  { rewrite Rabs_inv. apply Rle_trans with (/ (0.996 * Rabs s)); [apply Rinv_le_contravar; lra|]. rewrite Rinv_mult. apply Rmult_le_compat_r; [lra|]. lra. }
  split; [|exact I].
  replace (/ k - / s) with ((s - k) * / s * / k) by (field; split; assumption). rewrite !Rabs_mult. rewrite Rabs_minus_sym in H.
  apply Rle_trans with (e * Rabs s * / Rabs s * (1.005 * / Rabs s)).
  - apply Rmult_le_compat; try apply Rabs_pos; [apply Rmult_le_pos; apply Rabs_pos| |exact I]. rewrite Rabs_inv. apply Rmult_le_compat_r; [lra|exact H].
  - right. field. lra.
Qed.

Section FPM.
Variables (prec emax : Z) (Hp : Prec_gt_0 prec) (He : Prec_lt_emax prec emax).
Variables fsin fcos : binary_float prec emax -> binary_float prec emax.
Local Notation F := (binary_float prec emax).
Local Hint Extern 0 (Ops (binary_float prec emax)) =>
  exact (B_ops prec emax Hp He fsin fcos) : typeclass_instances.
Local Notation u := (bpow radix2 (- prec)).
Local Notation big := (bpow radix2 emax).
Local Notation tiny := (bpow radix2 (2 - emax)).
Local Notation flr := (fl prec emax).
Hypotheses (P14 : (14 <= prec)%Z) (E17 : (17 <= emax)%Z).
Local Notation mfl := (mfl prec emax).

Variables (s fx fy skew cx cy D C : R) (Rm : M33 R) (c : V3 R) (E : Z).
Hypotheses (RR : is_rotation Rm) (S0 : s <> 0) (FX : 0 < fx) (FY : 0 < fy).
Local Notation X := (mscl s (mm (kmat fx fy skew cx cy) Rm)).
Local Notation n0 := (kr0 fx skew cx).
Local Notation n1 := (kr1 fy cy).
Local Notation th := (kspread fx fy skew cx cy).
Hypotheses (UD : u <= D) (DT : 3200000 * D <= th) (E0 : (0 <= E)%Z) (E10 : (4 * E + 10 <= emax)%Z)
  (G2 : bpow radix2 (- E) <= th * Rabs s /\ Rabs s <= bpow radix2 E)
  (G1 : bpow radix2 (- E) <= th * (Rabs s * n1) /\ Rabs s * n1 <= bpow radix2 E)
  (G0 : bpow radix2 (- E) <= th * (Rabs s * n0) /\ Rabs s * n0 <= bpow radix2 E)
  (GC : bpow radix2 (- E) <= C /\ C <= bpow radix2 E) (CC : vlen c <= C).
Local Notation d := (190 * (D / th)).
Local Notation appD := (app prec emax D).

Lemma unscale (t : R) : bpow radix2 (- E) <= th * t -> 0 <= t -> bpow radix2 (- E) <= t.
Proof. intros H T. pose proof (th_le1 fx fy skew cx cy FX FY) as T1. assert (th * t <= 1 * t) by (apply Rmult_le_compat_r; assumption). lra. Qed.

(** the determinants *)
Section Det.
Variables (W0 W1 W2 Cd : R).
Hypotheses (w0 : bpow radix2 (- E) <= W0 <= bpow radix2 E) (w1 : bpow radix2 (- E) <= W1 <= bpow radix2 E) (w2 : bpow radix2 (- E) <= W2 <= bpow radix2 E) (cd : bpow radix2 (- E) <= Cd <= bpow radix2 E).
Lemma det_appD (m : M33 F) w :
  appD (m00 m) (m00 w) W0 1 -> appD (m01 m) (m01 w) W0 1 -> appD (m02 m) (m02 w) (W0 * Cd) 1 ->
  appD (m10 m) (m10 w) W1 1 -> appD (m11 m) (m11 w) W1 1 -> appD (m12 m) (m12 w) (W1 * Cd) 1 ->
  appD (m20 m) (m20 w) W2 1 -> appD (m21 m) (m21 w) W2 1 -> appD (m22 m) (m22 w) (W2 * Cd) 1 ->
  appD (m33_det m) (mdet w) (6 * (W0 * W1 * W2 * Cd)) 8.05.
Proof.
  pose proof (D0 prec D UD). pose proof (th_le1 fx fy skew cx cy FX FY).
  apply (det_app prec emax Hp He fsin fcos D UD ltac:(lra) E W0 W1 W2 Cd 1 3.01 4.02 6.03 7.04 8.05 E0 ltac:(lia) w0 w1 w2 cd); lra.
Qed.
End Det.

Lemma det_xs : Rabs (mdet X) = th * (Rabs s * n0 * (Rabs s * n1) * Rabs s).
Proof.
  destruct RR as (RO & RD). rewrite mdet_sk, RD, !Rabs_mult, (Rabs_pos_eq fx), (Rabs_pos_eq fy), Rabs_R1 by lra. unfold kspread.
  pose proof (n0_pos fx skew cx FX). pose proof (n1_pos fy cy FY). field. split; lra.
Qed.
Lemma det_xn : mdet X <> 0.
Proof. destruct RR as (RO & RD). rewrite mdet_sk, RD. intros H. repeat (apply Rmult_integral in H; destruct H as [H|H]); lra. Qed.

(** the centre *)
Lemma center_near (p : M34 F) :
  rows_near D C p (hstack X (mv X (vopp c))) -> vec_near (99 * (D / th) * C) (pmat2cam_center p) c.
Proof.
  intros (N0 & N1 & N2). destruct sign_s with (s := s) as (sg & SG & SS & SC). destruct (x_len s sg fx fy skew cx cy Rm ltac:(apply RR) SG SS) as (L2 & L1 & L0).
  pose proof det_xs as DX. pose proof det_xn as DN. pose proof (n0_pos fx skew cx FX) as n0P. pose proof (n1_pos fy cy FY) as n1P. pose proof (Rabs_pos_lt s S0) as SP.
  assert (Rn1 : 0 < Rabs s * n1) by (now apply Rmult_lt_0_compat). assert (Rn0 : 0 < Rabs s * n0) by (now apply Rmult_lt_0_compat).
  pose proof (th_pos fx fy skew cx cy FX FY) as TP. pose proof (D0 prec D UD) as DP. pose proof (th_le1 fx fy skew cx cy FX FY) as T1. pose proof (D_th prec fx fy skew cx cy D FX FY UD) as DD.
  pose proof (u0 prec) as U0.
  rewrite mv_rows in N0, N1, N2.
  set (Xm := X) in *. clearbody Xm.
  assert (B0 : bpow radix2 (- E) <= Rabs s * n0 <= bpow radix2 E) by (split; [apply unscale; lra|apply G0]).
  assert (B1 : bpow radix2 (- E) <= Rabs s * n1 <= bpow radix2 E) by (split; [apply unscale; lra|apply G1]).
  assert (B2 : bpow radix2 (- E) <= Rabs s <= bpow radix2 E) by (split; [apply unscale; lra|apply G2]).
  assert (BI : bpow radix2 (- E) <= 1 <= bpow radix2 E).
  { replace 1 with (bpow radix2 0) by reflexivity. split; apply bpow_le; lia. }
  pose proof (bpow_gt_0 radix2 (- E)) as EP. assert (CP : 0 < C) by lra.
  assert (ROW : forall (a b e t : F) r0 v, row_near D C a b e t (vx v) (vy v) (vz v) r0 -> r0 = - vdot v c -> appD a (vx v) (vlen v) 1 /\ appD b (vy v) (vlen v) 1 /\ appD e (vz v) (vlen v) 1 /\ appD t r0 (vlen v * C) 1).
  { intros a b e t r0 v ((Fa & Fb & Fe) & H & Ft & Ht) ->. destruct v as [v0 v1 v2]. cbn [vx vy vz] in *. set (v := mkV3 v0 v1 v2) in *.
    pose proof (comp_len v) as Lv. pose proof (comp_len (mkV3 (B2R a - v0) (B2R b - v1) (B2R e - v2))) as Ld.
    split; [exists (B2R a)|split; [exists (B2R b)|split; [exists (B2R e)|exists (B2R t)]]]; (split; [split; [assumption|reflexivity]|]); (split; [rewrite ?Rmult_1_l|]).
    - exact (Rle_trans _ _ _ (Ld 0%nat) H). - exact (Lv 0%nat). - exact (Rle_trans _ _ _ (Ld 1%nat) H). - exact (Lv 1%nat). - exact (Rle_trans _ _ _ (Ld 2%nat) H). - exact (Lv 2%nat).
    - lra.
    - rewrite Rabs_Ropp. eapply Rle_trans; [apply cauchy_schwarz|]. apply Rmult_le_compat_l; [apply vlen_nonneg|exact CC]. }
  destruct (ROW _ _ _ _ _ (mrow0 Xm) N0 eq_refl) as (a00 & a01 & a02 & a03). destruct (ROW _ _ _ _ _ (mrow1 Xm) N1 eq_refl) as (a10 & a11 & a12 & a13). destruct (ROW _ _ _ _ _ (mrow2 Xm) N2 eq_refl) as (a20 & a21 & a22 & a23).
  rewrite L0 in a00, a01, a02, a03. rewrite L1 in a10, a11, a12, a13. rewrite L2 in a20, a21, a22, a23. clear ROW N0 N1 N2.
  assert (ONE : forall (x : F) a W, appD x a W 1 -> appD x a (W * 1) 1) by (intros x a W; now rewrite Rmult_1_r).
  assert (AW := det_appD _ _ _ 1 B0 B1 B2 BI (m34_remove_col3 p) Xm a00 a01 (ONE _ _ _ a02) a10 a11 (ONE _ _ _ a12) a20 a21 (ONE _ _ _ a22)).
  assert (AX := det_appD _ _ _ C B0 B1 B2 GC (m34_remove_col0 p) (mcols (mcol1 Xm) (mcol2 Xm) (mkV3 (- vdot (mrow0 Xm) c) (- vdot (mrow1 Xm) c) (- vdot (mrow2 Xm) c))) a01 a02 a03 a11 a12 a13 a21 a22 a23).
  assert (AY := det_appD _ _ _ C B0 B1 B2 GC (m34_remove_col1 p) (mcols (mcol0 Xm) (mcol2 Xm) (mkV3 (- vdot (mrow0 Xm) c) (- vdot (mrow1 Xm) c) (- vdot (mrow2 Xm) c))) a00 a02 a03 a10 a12 a13 a20 a22 a23).
  assert (AZ := det_appD _ _ _ C B0 B1 B2 GC (m34_remove_col2 p) (mcols (mcol0 Xm) (mcol1 Xm) (mkV3 (- vdot (mrow0 Xm) c) (- vdot (mrow1 Xm) c) (- vdot (mrow2 Xm) c))) a00 a01 a03 a10 a11 a13 a20 a21 a23).
  rewrite <- mv_rows in AX, AY, AZ. apply (app_neg prec emax Hp He fsin fcos) in AW. apply (app_neg prec emax Hp He fsin fcos) in AY.
  rewrite cramer_x in AX. rewrite cramer_y in AY. rewrite cramer_z in AZ.
  clear a00 a01 a02 a03 a10 a11 a12 a13 a20 a21 a22 a23 ONE.
  set (PP := Rabs s * n0 * (Rabs s * n1) * Rabs s) in *. assert (P0 : 0 < PP) by (apply Rmult_lt_0_compat; [now apply Rmult_lt_0_compat|exact SP]). clearbody PP.
  destruct AW as (rw & FW & EW & _). rewrite Rmult_1_r in EW.
  assert (wN : - mdet Xm <> 0) by lra. assert (wA : Rabs (- mdet Xm) = th * PP) by (rewrite Rabs_Ropp; exact DX).
  set (wd := - mdet Xm) in *. clearbody wd. clear DX DN.
  assert (DIV : forall (xh : F) t, Rabs t <= C -> appD xh (wd * t) (6 * (PP * C)) 8.05 -> near (99 * (D / th) * C) (o_div xh (o_neg (m33_det (m34_remove_col3 p)))) t).
  { intros xh t Ht (rx & FX' & EX & _). destruct (quot_err _ wd t rx rw PP C (48.3 * D) th P0 TP ltac:(lra) ltac:(lra) ltac:(lra) wN wA eq_refl Ht) as (WN & Q); [lra|lra|].
    assert (DTS : D / th <= / 3200000) by (apply Rmult_le_reg_r with th; [assumption|]; replace (D / th * th) with D by (field; lra); lra).
    replace (48.3 * D / th) with (48.3 * (D / th)) in Q by (unfold Rdiv; ring). assert (DTC : 0 <= D / th * C) by (apply Rmult_le_pos; lra).
    assert (DSC : D / th * C <= / 3200000 * C) by (apply Rmult_le_compat_r; lra).
    assert (QA : Rabs (rx / rw) <= 1.01 * C).
    { pose proof (Rabs_triang (rx / rw - t) t). replace (rx / rw - t + t) with (rx / rw) in * by ring. lra. }
    assert (TC : tiny <= 1.01 * C /\ (1 + u) * (1.01 * C) < big).
    { assert (tiny <= bpow radix2 (- E)) by (apply bpow_le; lia). assert (4 * bpow radix2 E < big) by (replace 4 with (bpow radix2 2) by reflexivity; rewrite <- bpow_plus; apply bpow_lt; lia).
      split; [lra|]. assert (u * (1.01 * C) <= 1 * (1.01 * C)) by (apply Rmult_le_compat_r; lra). lra. }
    destruct (div_err prec emax Hp He fsin fcos xh _ rx rw (1.01 * C) FX' FW WN (proj1 TC) QA (proj2 TC)) as (r & Fr & Er & _).
    destruct Fr as (Fr & Vr). split; [exact Fr|]. rewrite Vr. pose proof (Rabs_triang (r - rx / rw) (rx / rw - t)). replace (r - rx / rw + (rx / rw - t)) with (r - t) in * by ring.
    assert (u * (1.01 * C) <= D / th * (1.01 * C)) by (apply Rmult_le_compat_r; lra). lra. }
  pose proof (comp_len c) as Lc. split; [|split]; (apply DIV; [|assumption]).
  - exact (Rle_trans _ _ _ (Lc 0%nat) CC). - exact (Rle_trans _ _ _ (Lc 1%nat) CC). - exact (Rle_trans _ _ _ (Lc 2%nat) CC).
Qed.

(** the intrinsics divided by the corner *)
Lemma scale_near (K : F) (k : F) a vk vv n : flr K vk -> Rabs (vk - s) <= 63 * d * Rabs s -> flr k vv -> Rabs (vv - s * a) <= 63 * d * (Rabs s * n) -> Rabs a <= n ->
  0 < n -> Rabs s * n <= bpow radix2 E -> bpow radix2 (- E) <= Rabs s * n ->
  near (131 * d * n) (o_mul k (o_div o_one K)) a.
Proof.
  intros FK EK Fk Ek An n0' GU GL. destruct (d_small prec fx fy skew cx cy D FX FY UD DT) as (ud & dS). pose proof (u0 prec) as U0. pose proof (Rabs_pos_lt s S0) as SP. pose proof (Rinv_0_lt_compat _ SP) as IP.
  destruct (inv_err s vk (63 * d) S0 ltac:(lra) EK) as (KN & EI & BI). pose proof (bpow_gt_0 radix2 (- E)) as EP.
  assert (B2 : bpow radix2 (- E) <= Rabs s <= bpow radix2 E) by (split; [apply unscale; lra|apply G2]).
  assert (IS : bpow radix2 (- E) <= / Rabs s <= bpow radix2 E).
  { rewrite bpow_opp in *. split; [apply Rinv_le_contravar; lra|]. rewrite <- (Rinv_inv (bpow radix2 E)). apply Rinv_le_contravar; lra. }
  assert (BB : bpow radix2 (2 - emax) <= bpow radix2 (- E) /\ bpow radix2 (2 - emax) <= bpow radix2 (- (E + E)) /\ 4 * bpow radix2 E < big /\ 4 * bpow radix2 (E + E) < big).
  { replace 4 with (bpow radix2 2) by reflexivity. rewrite <- !bpow_plus. split; [apply bpow_le; lia|]. split; [apply bpow_le; lia|]. split; apply bpow_lt; lia. }
  destruct BB as (T1 & T2 & T3 & T4).
  assert (u * (1.005 * / Rabs s) <= 1 * (1.005 * / Rabs s)) by (apply Rmult_le_compat_r; lra).
  destruct (div_err prec emax Hp He fsin fcos o_one K 1 vk (1.005 * / Rabs s) (fl_one prec emax Hp He fsin fcos) FK KN) as (r & Fr & Er & _); [lra|unfold Rdiv; rewrite Rmult_1_l; exact BI|lra|].
  assert (AR : app prec emax d (o_div o_one K) (/ s) (/ Rabs s) 64.4).
  { exists r. split; [exact Fr|]. split; [|rewrite Rabs_inv; lra]. replace (1 / vk) with (/ vk) in Er by (unfold Rdiv; ring).
    pose proof (Rabs_triang (r - / vk) (/ vk - / s)). replace (r - / vk + (/ vk - / s)) with (r - / s) in * by ring. assert (u * (1.005 * / Rabs s) <= d * (1.005 * / Rabs s)) by (apply Rmult_le_compat_r; lra). nra. }
  assert (AK : app prec emax d k (s * a) (Rabs s * n) 63).
  { exists vv. split; [exact Fk|]. split; [lra|]. rewrite Rabs_mult. apply Rmult_le_compat_l; lra. }
  assert (RN : bpow radix2 (- (E + E)) <= Rabs s * n * / Rabs s <= bpow radix2 (E + E)) by (apply prod_range; auto; lra).
  pose proof (app_mul prec emax Hp He fsin fcos d ud ltac:(lra) k _ (s * a) (/ s) (Rabs s * n) (/ Rabs s) 63 64.4 131 AK AR ltac:(lra) ltac:(lra) ltac:(lra) ltac:(lra) ltac:(lra)) as AM.
  replace (s * a * / s) with a in AM by (field; exact S0). replace (Rabs s * n * / Rabs s) with n in AM by (field; lra). apply (app_near prec emax d _ _ _ _ _ AM). lra.
Qed.

(** from_perspective_matrix *)
Lemma fpm_near (p : M34 F) : rows_near D C p (hstack X (mv X (vopp c))) ->
  exists k qh ch q, from_perspective_matrix p = Some (Ok (camera_new (perspective_from k) (from_rotation_and_camcenter qh ch))) /\
    near (131 * d * n0) (pp_fx k) fx /\ near (131 * d * n1) (pp_fy k) fy /\ near (131 * d * n0) (pp_skew k) skew /\ near (131 * d * n0) (pp_cx k) cx /\ near (131 * d * n1) (pp_cy k) cy /\
    unit_quat q /\ rotm q = Rm /\ quat_near (230 * d) qh q /\ vec_near (99 * (D / th) * C) ch c.
Proof.
  intros N. pose proof (center_near p N) as CN. destruct N as (((f00 & f01 & f02) & N0 & _) & ((f10 & f11 & f12) & N1 & _) & ((f20 & f21 & f22) & N2 & _)).
  pose proof (n0_pos fx skew cx FX) as n0P. pose proof (n1_pos fy cy FY) as n1P. pose proof (Rabs_pos_lt s S0) as SP.
  assert (Rn1 : 0 < Rabs s * n1) by (now apply Rmult_lt_0_compat). assert (Rn0 : 0 < Rabs s * n0) by (now apply Rmult_lt_0_compat).
  assert (HM : mfl (m34_remove_col3 p) (mre prec emax (m34_remove_col3 p))).
  { split; [|split]; (split; [|split]); (split; [assumption|reflexivity]). }
  destruct (rqd_near prec emax Hp He fsin fcos P14 E17 s fx fy skew cx cy D Rm E RR S0 FX FY UD DT E0 ltac:(lia) G2 G1 G0 _ _ HM N0 N1 N2)
    as (qh & K & k & q & RQ & HK & Uq & Eq & Nq & K22 & (K12 & K11) & (K02 & K01 & K00)).
  destruct HK as ((F00 & F01 & F02) & (_ & F11 & F12) & (_ & _ & F22)).
  pose proof (comp_len (mkV3 fx skew cx)) as L0. pose proof (comp_len (mkV3 fy cy 0)) as L1.
  pose proof (unscale _ (proj1 G0) ltac:(lra)) as U0'. pose proof (unscale _ (proj1 G1) ltac:(lra)) as U1'.
  eexists _, qh, (pmat2cam_center p), q. split.
  { unfold from_perspective_matrix. rewrite RQ. cbn [bind]. reflexivity. }
  cbn [pp_fx pp_fy pp_skew pp_cx pp_cy m33_scale m00 m11 m01 m02 m12].
  split; [|split; [|split; [|split; [|split; [|split; [exact Uq|split; [exact Eq|split; [exact Nq|exact CN]]]]]]]].
  - apply (scale_near (m22 K) _ fx _ _ n0 F22 K22 F00 K00 (L0 0%nat) n0P (proj2 G0) U0').
  - apply (scale_near (m22 K) _ fy _ _ n1 F22 K22 F11 K11 (L1 0%nat) n1P (proj2 G1) U1').
  - apply (scale_near (m22 K) _ skew _ _ n0 F22 K22 F01 K01 (L0 1%nat) n0P (proj2 G0) U0').
  - apply (scale_near (m22 K) _ cx _ _ n0 F22 K22 F02 K02 (L0 2%nat) n0P (proj2 G0) U0').
  - apply (scale_near (m22 K) _ cy _ _ n1 F22 K22 F12 K12 (L1 1%nat) n1P (proj2 G1) U1').
Qed.
End FPM.
