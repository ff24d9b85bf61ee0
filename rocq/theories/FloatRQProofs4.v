(** * FloatRQProofs4.v - rounding error of from_perspective_matrix (C108) *)

From Coq Require Import ZArith Reals List Bool Lra Lia Psatz.
From Flocq Require Import Core BinarySingleNaN.
From Verif Require Import Scalar Linalg Householder Bundles Perspective Extrinsics Camera Spec SpecFloatErr SpecFloatRQ RealBase VecLemmas FromViewProofs SpectralProofs CamMatProofs FloatBase FloatRound FloatErrProofs FloatApprox FloatRigidProofs
  FloatDirProofs FloatViewProofs QRProofs JacProofs FloatIsectProofs3 FloatIsectProofs4 FloatQRProofs FloatQRProofs2 RQPerturbProofs FloatRQProofs FloatRQProofs2 FloatRQProofs3.
Import ListNotations.
Local Open Scope R_scope.

Lemma mdet_mscl s m : mdet (mscl s m) = s * s * s * mdet m.
Proof. vring. Qed.
Lemma mscl_orth s m : s * s = 1 -> orthogonal m -> orthogonal (mscl s m).
Proof.
  intros S (A & B). split.
  - replace (mm (mtr (mscl s m)) (mscl s m)) with (mscl (s * s) (mm (mtr m) m)) by vring. rewrite S, A. vring.
  - replace (mm (mscl s m) (mtr (mscl s m))) with (mscl (s * s) (mm m (mtr m))) by vring. rewrite S, B. vring.
Qed.
Lemma mdet_rows m : mdet m = vdot (mrow2 m) (vcross (mrow0 m) (mrow1 m)).
Proof. vring. Qed.

Lemma mscl_1 m : mscl 1 m = m.
Proof. vring. Qed.
Lemma mscl_mm1 m : mscl (-1) (mscl (-1) m) = m.
Proof. vring. Qed.

Section RQD.
Variables (prec emax : Z) (Hp : Prec_gt_0 prec) (He : Prec_lt_emax prec emax).
Variables fsin fcos : binary_float prec emax -> binary_float prec emax.
Local Notation F := (binary_float prec emax).
Local Hint Extern 0 (Ops (binary_float prec emax)) =>
  exact (B_ops prec emax Hp He fsin fcos) : typeclass_instances.
Local Notation u := (bpow radix2 (- prec)).
Local Notation big := (bpow radix2 emax).
Local Notation tiny := (bpow radix2 (2 - emax)).
Local Notation flr := (fl prec emax).
Hypotheses (P14 : (14 <= prec)%Z) (E17 : (17 <= emax)%Z).
Local Notation mfl := (mfl prec emax).
Local Notation mat_near := (mat_near prec emax).

Lemma mfl_neg m w : mfl m w -> mfl (m33_neg m) (mscl (-1) w).
Proof.
  intros ((A & B & C) & (D & E & G) & (H & I & J)). assert (N : forall x r, flr x r -> flr (o_neg x) (-1 * r)) by (intros x r X; replace (-1 * r) with (- r) by ring; now apply fl_neg).
  split; [|split]; (split; [|split]); apply N; assumption.
Qed.
Lemma rows_mat_near e Q q m : mfl Q q -> vdist (mrow0 q) (mrow0 m) <= e -> vdist (mrow1 q) (mrow1 m) <= e -> vdist (mrow2 q) (mrow2 m) <= e -> mat_near e Q m.
Proof.
  intros ((A & B & C) & (D & E & G) & (H & I & J)) R0 R1 R2. unfold vdist in *.
  assert (N : forall x r t, flr x r -> Rabs (r - t) <= e -> near e x t) by (intros x r t (Fx & <-) L; split; assumption).
  pose proof (comp_len (vsub (mrow0 q) (mrow0 m))) as L0. pose proof (comp_len (vsub (mrow1 q) (mrow1 m))) as L1. pose proof (comp_len (vsub (mrow2 q) (mrow2 m))) as L2.
  split; [apply (N _ _ _ A)|split; [apply (N _ _ _ B)|split; [apply (N _ _ _ C)|split; [apply (N _ _ _ D)|split; [apply (N _ _ _ E)|split; [apply (N _ _ _ G)|split; [apply (N _ _ _ H)|split; [apply (N _ _ _ I)|apply (N _ _ _ J)]]]]]]]].
  - exact (Rle_trans _ _ _ (L0 0%nat) R0).
  - exact (Rle_trans _ _ _ (L0 1%nat) R0).
  - exact (Rle_trans _ _ _ (L0 2%nat) R0).
  - exact (Rle_trans _ _ _ (L1 0%nat) R1).
  - exact (Rle_trans _ _ _ (L1 1%nat) R1).
  - exact (Rle_trans _ _ _ (L1 2%nat) R1).
  - exact (Rle_trans _ _ _ (L2 0%nat) R2).
  - exact (Rle_trans _ _ _ (L2 1%nat) R2).
  - exact (Rle_trans _ _ _ (L2 2%nat) R2).
Qed.
Lemma mat_near_neg e Q m : mat_near e Q m -> mat_near e (m33_neg Q) (mscl (-1) m).
Proof.
  assert (N : forall (x : F) t, near e x t -> near e (o_neg x) (-1 * t)).
  { intros x t (Fx & L). destruct (fl_neg prec emax Hp He fsin fcos x (B2R x) (conj Fx eq_refl)) as (Fn & En). split; [exact Fn|]. rewrite En. replace (- B2R x - -1 * t) with (- (B2R x - t)) by ring. now rewrite Rabs_Ropp. }
  intros (A & B & C & D & E & G & H & I & J). split; [|split; [|split; [|split; [|split; [|split; [|split; [|split]]]]]]]; apply N; assumption.
Qed.

Variables (s fx fy skew cx cy D : R) (Rm : M33 R) (E : Z).
Hypotheses (RR : is_rotation Rm) (S0 : s <> 0) (FX : 0 < fx) (FY : 0 < fy).
Local Notation X := (mscl s (mm (kmat fx fy skew cx cy) Rm)).
Local Notation n0 := (kr0 fx skew cx).
Local Notation n1 := (kr1 fy cy).
Local Notation th := (kspread fx fy skew cx cy).
Hypotheses (UD : u <= D) (DT : 3200000 * D <= th) (E0 : (0 <= E)%Z) (E10 : (2 * E + 10 <= emax)%Z)
  (G2 : bpow radix2 (- E) <= th * Rabs s /\ Rabs s <= bpow radix2 E)
  (G1 : bpow radix2 (- E) <= th * (Rabs s * n1) /\ Rabs s * n1 <= bpow radix2 E)
  (G0 : bpow radix2 (- E) <= th * (Rabs s * n0) /\ Rabs s * n0 <= bpow radix2 E).
Local Notation d := (190 * (D / th)).

Lemma th0 : 0 < th. Proof. now apply th_pos. Qed.
Lemma D0 : 0 < D. Proof. pose proof (u0 prec). lra. Qed.
Lemma D_th : D <= D / th.
Proof.
  pose proof th0 as T. pose proof (th_le1 fx fy skew cx cy FX FY) as T1. pose proof D0. apply Rmult_le_reg_r with th; [exact T|]. replace (D / th * th) with D by (field; lra). nra.
Qed.
Lemma d_small : u <= d /\ d <= / 16384.
Proof.
  pose proof D_th. pose proof D0. pose proof th0. split; [lra|]. assert (D / th <= / 3200000).
  { apply Rmult_le_reg_r with th; [assumption|]. replace (D / th * th) with D by (field; lra). lra. }
  lra.
Qed.
Lemma sign_s : exists sg, sg * sg = 1 /\ sg * s = Rabs s /\ (sg = 1 \/ sg = -1).
Proof.
  destruct (Rle_lt_dec 0 s); [exists 1|exists (-1)]; (split; [ring|split; [|auto]]).
  - rewrite Rabs_pos_eq by assumption. ring.
  - rewrite Rabs_left by assumption. ring.
Qed.

(** the decomposition of a matrix with rows close to those of [X] *)
Lemma rqd_near (A : M33 F) w : mfl A w ->
  vdist (mrow0 w) (mrow0 X) <= D * vlen (mrow0 X) -> vdist (mrow1 w) (mrow1 X) <= D * vlen (mrow1 X) -> vdist (mrow2 w) (mrow2 X) <= D * vlen (mrow2 X) ->
  exists qh K k q, rq_decomposition A = Some (Ok (qh, K)) /\ mfl K k /\ unit_quat q /\ rotm q = Rm /\ quat_near (230 * d) qh q /\
    Rabs (m22 k - s) <= 63 * d * Rabs s /\ (Rabs (m12 k - s * cy) <= 63 * d * (Rabs s * n1) /\ Rabs (m11 k - s * fy) <= 63 * d * (Rabs s * n1)) /\
    (Rabs (m02 k - s * cx) <= 63 * d * (Rabs s * n0) /\ Rabs (m01 k - s * skew) <= 63 * d * (Rabs s * n0) /\ Rabs (m00 k - s * fx) <= 63 * d * (Rabs s * n0)).
Proof.
  intros HA N0 N1 N2. destruct sign_s as (sg & SG & SS & SC). destruct RR as (RO & RD). pose proof th0 as TP. pose proof (th_le1 fx fy skew cx cy FX FY) as T1. pose proof D0 as DP. pose proof D_th as DD.
  destruct d_small as (ud & dS). pose proof (u0 prec) as U0.
  destruct (x_len s sg fx fy skew cx cy Rm RO SG SS) as (L2 & L1 & L0). pose proof (Rabs_pos_lt s S0) as SP.
  pose proof (n0_pos fx skew cx FX) as n0P. pose proof (n1_pos fy cy FY) as n1P.
  pose proof (x_indep s sg fx fy skew cx cy Rm RO SG SS S0 FX FY) as XI.
  assert (LEN : forall v x, vdist v x <= D * vlen x -> 0.999 * vlen x <= vlen v <= (1 + D) * vlen x).
  { intros v x H. destruct (vdist_len v x) as (Ha & Hb). pose proof (vlen_nonneg x). split; [|lra]. assert (D * vlen x <= 0.001 * vlen x) by (apply Rmult_le_compat_r; lra). lra. }
  pose proof (LEN _ _ N0) as M0. pose proof (LEN _ _ N1) as M1. pose proof (LEN _ _ N2) as M2. clear LEN.
  assert (WI : indep (0.985 * (0.577 * th)) (mrow2 w) (mrow1 w) (mrow0 w)).
  { apply (indep_near (0.577 * th) D (mrow2 X) (mrow1 X) (mrow0 X)); try assumption; lra. }
  assert (BE : bpow radix2 (- (E + 2)) = bpow radix2 (- E) / 4 /\ bpow radix2 (E + 2) = 4 * bpow radix2 E).
  { replace (- (E + 2))%Z with (- E + -2)%Z by ring. rewrite !bpow_plus. change (bpow radix2 (-2)) with (/ 4). change (bpow radix2 2) with 4. split; [field|ring]. }
  destruct BE as (BE1 & BE2). pose proof (bpow_gt_0 radix2 (- E)) as EP.
  assert (RNG1 : forall v x, 0.999 * vlen x <= vlen v <= (1 + D) * vlen x -> bpow radix2 (- E) <= th * vlen x -> vlen x <= bpow radix2 E ->
    2 * bpow radix2 (- (E + 2)) <= 0.985 * (0.577 * th) * vlen v /\ 2 * vlen v <= bpow radix2 (E + 2)).
  { intros v x H A1 A2. rewrite BE1, BE2. pose proof (vlen_nonneg x). split; [|assert (D * vlen x <= 0.001 * vlen x) by (apply Rmult_le_compat_r; lra); lra].
    assert (0.56 * th * vlen x <= 0.985 * (0.577 * th) * vlen v) by (replace (0.985 * (0.577 * th) * vlen v) with (0.568345 * th * vlen v) by lra; assert (th * (0.999 * vlen x) <= th * vlen v) by (apply Rmult_le_compat_l; lra); lra). lra. }
  assert (RNG : forall x, In x [mrow2 w; mrow1 w; mrow0 w] -> 2 * bpow radix2 (- (E + 2)) <= 0.985 * (0.577 * th) * vlen x /\ 2 * vlen x <= bpow radix2 (E + 2)).
  { intros x [<-|[<-|[<-|[]]]]; [apply (RNG1 _ _ M2)|apply (RNG1 _ _ M1)|apply (RNG1 _ _ M0)]; rewrite ?L2, ?L1, ?L0; tauto. }
  destruct (rq_app prec emax Hp He fsin fcos P14 E17 A w (0.985 * (0.577 * th)) (E + 2) HA ltac:(lia) ltac:(lia) ltac:(lra) WI RNG)
    as (W & K & Q & k & q & RQ & HK & HQ & OW & Q2 & Q1 & Q0 & H2 & H1 & H0 & P0 & P1 & P2).
  assert (STEP : forall h v x, vdist h (mv (mtr W) v) <= 1131 * u * vlen v -> vdist v x <= D * vlen x -> vlen v <= (1 + D) * vlen x -> vdist h (mv (mtr W) x) <= 1133 * D * vlen x).
  { intros h v x A1 A2 A3. pose proof (vdist_triangle h (mv (mtr W) v) (mv (mtr W) x)) as T. rewrite (orth_dist (mtr W) v x) in T by (apply orthogonal_mtr; exact OW). pose proof (vlen_nonneg x) as X0.
    assert (1131 * u * vlen v <= 1131 * D * ((1 + D) * vlen x)) by (apply Rmult_le_compat; try lra; apply vlen_nonneg).
    assert (D * (D * vlen x) <= 0.0005 * (D * vlen x)) by (apply Rmult_le_compat_r; [apply Rmult_le_pos; lra|lra]). pose proof (Rmult_le_pos D (vlen x) ltac:(lra) X0). lra. }
  pose proof (STEP _ _ _ H2 N2 ltac:(apply M2)) as J2. pose proof (STEP _ _ _ H1 N1 ltac:(apply M1)) as J1. pose proof (STEP _ _ _ H0 N0 ltac:(apply M0)) as J0. clear STEP RNG RNG1.
  destruct (factors_near s sg fx fy skew cx cy Rm RO SG SS S0 FX FY W D _ _ _ _ _ _ OW DP DT P2 P1 P0 J2 J1 J0) as ((F2 & F1 & F0) & K2 & K1 & K0).
  assert (ROW : forall a b c, vdist a b <= 1780 * u -> vdist b c <= 10762 * (D / th) -> vdist a c <= 69 * d) by (intros a b c A1 A2; pose proof (vdist_triangle a b c); lra).
  assert (NQ : mat_near (69 * d) Q (mscl sg Rm)) by (apply (rows_mat_near _ Q q); [exact HQ|exact (ROW _ _ _ Q0 F0)|exact (ROW _ _ _ Q1 F1)|exact (ROW _ _ _ Q2 F2)]).
  pose proof (mat_near_neg _ _ _ NQ) as NN.
  assert (RO1 : orthogonal (mscl sg Rm)) by (apply mscl_orth; assumption). assert (RO2 : orthogonal (mscl (-1) (mscl sg Rm))) by (apply mscl_orth; [ring|assumption]).
  destruct (det_sign prec emax Hp He fsin fcos E17 d Q _ ud dS RO1 NQ) as (r1 & R1 & R1D). destruct (det_sign prec emax Hp He fsin fcos E17 d _ _ ud dS RO2 NN) as (r2 & R2 & R2D).
  rewrite !mdet_mscl, RD in R1D. rewrite !mdet_mscl, RD in R2D.
  assert (PARTS : forall a b c e v, vdist (mkV3 a b c) v <= e -> Rabs (a - vx v) <= e /\ Rabs (b - vy v) <= e /\ Rabs (c - vz v) <= e).
  { intros a b c e v Hv. unfold vdist in Hv. pose proof (comp_len (vsub (mkV3 a b c) v)) as L. pose proof (Rle_trans _ _ _ (L 0%nat) Hv). pose proof (Rle_trans _ _ _ (L 1%nat) Hv). pose proof (Rle_trans _ _ _ (L 2%nat) Hv). tauto. }
  apply PARTS in K2, K1, K0. destruct K2 as (K22 & _). destruct K1 as (K12 & K11 & _). destruct K0 as (K02 & K01 & K00). unfold xr0, xr1, xr2 in *. cbn [vx vy vz] in *. clear PARTS.
  assert (DTP : 0 < D / th) by lra.
  assert (Rn1 : 0 < Rabs s * n1) by (now apply Rmult_lt_0_compat). assert (Rn0 : 0 < Rabs s * n0) by (now apply Rmult_lt_0_compat).
  assert (UP : forall x, 0 < x -> 11900 * (D / th) * x <= 63 * d * x) by (intros x Hx; apply Rmult_le_compat_r; lra).
  pose proof (UP _ SP) as U2. pose proof (UP _ Rn1) as U1'. pose proof (UP _ Rn0) as U0'. clear UP.
  assert (FL := flip_none prec emax Hp He fsin fcos K Q k HK P0 P1 P2).
  pose proof (fl_ltb prec emax Hp He fsin fcos _ _ _ _ R2 R1) as LT.
  unfold rq_decomposition. rewrite RQ. cbv beta iota zeta. rewrite FL. cbn [bind]. clear RQ FL.
  destruct SC as [-> | ->].
  - assert (LTT : o_ltb (m33_det (m33_neg Q)) (m33_det Q) = true) by (apply LT; apply Rabs_le_inv in R1D, R2D; lra). rewrite LTT.
    rewrite mscl_1 in NQ. destruct (from_matrix_near prec emax Hp He fsin fcos P14 E17 d ud dS Q Rm (conj RO RD) NQ) as (q' & Uq & Eq & Nq).
    exists (q_from_rotation_matrix Q), K, k, q'. rewrite <- SS, Rmult_1_l in *. rewrite Rmult_1_l in *.
    split; [reflexivity|]. split; [exact HK|]. split; [exact Uq|]. split; [exact Eq|]. split; [exact Nq|]. split; [lra|]. split; [split; lra|]. split; [lra|split; lra].
  - assert (LTT : o_ltb (m33_det (m33_neg Q)) (m33_det Q) = false).
    { destruct (o_ltb _ _); [|reflexivity]. assert (r2 < r1) by now apply LT. apply Rabs_le_inv in R1D, R2D. lra. }
    rewrite LTT. rewrite mscl_mm1 in NN. destruct (from_matrix_near prec emax Hp He fsin fcos P14 E17 d ud dS _ Rm (conj RO RD) NN) as (q' & Uq & Eq & Nq).
    exists (q_from_rotation_matrix (m33_neg Q)), (m33_neg K), (mscl (-1) k), q'.
    split; [reflexivity|]. split; [apply mfl_neg; exact HK|]. split; [exact Uq|]. split; [exact Eq|]. split; [exact Nq|].
    assert (NEG : forall a b e f, Rabs (a - Rabs s * b) <= e -> e <= f -> Rabs (-1 * a - s * b) <= f).
    { intros a b e f H Hf. rewrite <- SS in H. replace (-1 * a - s * b) with (- (a - -1 * s * b)) by ring. rewrite Rabs_Ropp. lra. }
    cbn [mscl m22 m12 m11 m02 m01 m00].
    split; [|split; [split|split; [|split]]]; try (eapply NEG; eassumption).
    replace (-1 * m22 k - s) with (-1 * m22 k - s * 1) by ring. eapply NEG; [rewrite Rmult_1_r; exact K22|exact U2].
Qed.
End RQD.
