(** * FloatRQProofs7.v - as_camera_matrix followed by from_perspective_matrix, with rounding (C109) *)

From Coq Require Import ZArith Reals List Bool Lra Lia Psatz.
From Flocq Require Import Core BinarySingleNaN.
From Verif Require Import Scalar Linalg Householder Bundles Perspective Extrinsics Camera Spec SpecFloatErr SpecFloatMat SpecFloatRQ RealBase VecLemmas FromViewProofs SpectralProofs CamMatProofs FloatBase FloatRound FloatErrProofs FloatApprox FloatRigidProofs
  FloatDirProofs FloatViewProofs FloatJacProofs QRProofs JacProofs FloatIsectProofs3 FloatIsectProofs4 FloatQRProofs FloatQRProofs2 RQPerturbProofs FloatRQProofs FloatRQProofs2 FloatRQProofs3 FloatRQProofs4 FloatRQProofs5 FloatRQProofs6.
Import ListNotations.
Local Open Scope R_scope.

Lemma scaled_exact s fx fy skew cx cy q c : s <> 0 ->
  let X := hstack (mm (kmat fx fy skew cx cy) (rotm q)) (mv (kmat fx fy skew cx cy) (vopp (mv (rotm q) c))) in
  let Y := scaled_matrix (/ s) fx fy skew cx cy q c in
  (p00 X / s = p00 Y /\ p01 X / s = p01 Y /\ p02 X / s = p02 Y /\ p03 X / s = p03 Y) /\
  (p10 X / s = p10 Y /\ p11 X / s = p11 Y /\ p12 X / s = p12 Y /\ p13 X / s = p13 Y) /\
  (p20 X / s = p20 Y /\ p21 X / s = p21 Y /\ p22 X / s = p22 Y /\ p23 X / s = p23 Y).
Proof.
  intros S. cbv zeta. unfold scaled_matrix. set (Rm := rotm q). clearbody Rm. destruct Rm as [a b e f g h i j l], c as [x y z].
  unfold hstack, mm, mv, mscl, kmat, vopp, vdot, mrow0, mrow1, mrow2, mcol0, mcol1, mcol2. cbn [p00 p01 p02 p03 p10 p11 p12 p13 p20 p21 p22 p23 m00 m01 m02 m10 m11 m12 m20 m21 m22 vx vy vz].
  repeat split; field; exact S.
Qed.
Lemma scaled_rows s fx fy skew cx cy q c : unit_quat q -> let Y := scaled_matrix s fx fy skew cx cy q c in
  vlen (mkV3 (p00 Y) (p01 Y) (p02 Y)) = Rabs s * kr0 fx skew cx /\ vlen (mkV3 (p10 Y) (p11 Y) (p12 Y)) = Rabs s * kr1 fy cy /\ vlen (mkV3 (p20 Y) (p21 Y) (p22 Y)) = Rabs s.
Proof.
  intros U. destruct sign_s with (s := s) as (sg & SG & SS & _). destruct (x_len s sg fx fy skew cx cy (rotm q) (rotm_orthogonal q U) SG SS) as (L2 & L1 & L0). split; [exact L0|split; [exact L1|exact L2]].
Qed.
Lemma vlen_le3 x y z e : 0 <= e -> Rabs x <= e -> Rabs y <= e -> Rabs z <= e -> vlen (mkV3 x y z) <= 1.7321 * e.
Proof.
  intros E0 X Y Z. unfold vlen, vdot. cbn [vx vy vz]. assert (SQ : forall a, Rabs a <= e -> a * a <= e * e) by (intros a A; apply Rsqr_le_abs_1; rewrite (Rabs_pos_eq e); lra).
  pose proof (SQ _ X). pose proof (SQ _ Y). pose proof (SQ _ Z). apply sqrt_le_sq; nra.
Qed.

Section RT.
Variables (prec emax : Z) (Hp : Prec_gt_0 prec) (He : Prec_lt_emax prec emax).
Variables fsin fcos : binary_float prec emax -> binary_float prec emax.
Local Notation F := (binary_float prec emax).
Local Hint Extern 0 (Ops (binary_float prec emax)) =>
  exact (B_ops prec emax Hp He fsin fcos) : typeclass_instances.
Local Notation big := (bpow radix2 emax).
Local Notation flr := (fl prec emax).
Variable u : R.
Hypotheses (UR : bpow radix2 (- prec) <= u) (U11 : u <= / 2048) (E17 : (17 <= emax)%Z).
Local Notation app := (app prec emax u).
Variables (k : PerspectiveParams F) (qh : Quat F) (q : Quat R) (c : V3 F) (M d0 : R).
Local Notation fx := (B2R (pp_fx k)). Local Notation fy := (B2R (pp_fy k)). Local Notation skew := (B2R (pp_skew k)). Local Notation cx := (B2R (pp_cx k)). Local Notation cy := (B2R (pp_cy k)).
Local Notation n0 := (kr0 fx skew cx). Local Notation n1 := (kr1 fy cy).
Hypotheses (U : unit_quat q) (N : quat_near (8 * u) qh q) (C : vec_sized M c) (M1 : 1 <= M)
  (FK : is_finite (pp_fx k) = true /\ is_finite (pp_fy k) = true /\ is_finite (pp_skew k) = true /\ is_finite (pp_cx k) = true /\ is_finite (pp_cy k) = true)
  (FX : 1 <= fx) (FY : 1 <= fy).
Hypotheses (B10 : 4096 * n0 * M * M < big) (B30 : 4096 * n0 * M * M < big * (d0 * d0)) (B11 : 4096 * n1 * M * M < big) (B31 : 4096 * n1 * M * M < big * (d0 * d0)).
Hypotheses (d01 : 0 < d0) (dz : d0 <= Rabs (vz (mv (rotm q) (vreal c)))) (Wd0 : 40000 * u * M <= d0).
Local Notation cam := (camera_new (perspective_from k) (from_rotation_and_camcenter qh c)).

Lemma cam_rows : exists s, 0.99 * d0 <= Rabs s /\ Rabs s <= 2.2 * M /\ rows_near (440 * u) (1.8 * M) (as_camera_matrix cam) (scaled_matrix (/ s) fx fy skew cx cy q (vreal c)).
Proof.
  pose proof (n0_pos fx skew cx ltac:(lra)) as n0P. pose proof (n1_pos fy cy ltac:(lra)) as n1P. pose proof (comp_len (mkV3 fx skew cx)) as L0. pose proof (comp_len (mkV3 fy cy 0)) as L1.
  destruct FK as (F1 & F2 & F3 & F4 & F5).
  assert (A1 : 1 <= n0). { pose proof (L0 0%nat) as H. cbn [comp vx] in H. rewrite Rabs_pos_eq in H by lra. unfold kr0. lra. }
  assert (A2 : 1 <= n1). { pose proof (L1 0%nat) as H. cbn [comp vx] in H. rewrite Rabs_pos_eq in H by lra. unfold kr1. lra. }
  pose proof (ud_pos prec u UR) as U0.
  set (k0 := mkPP (pp_fx k) (pp_fx k) (pp_skew k) (pp_cx k) (pp_cx k)). set (k1 := mkPP (pp_fy k) (pp_fy k) (pp_fy k) (pp_cy k) (pp_cy k)).
  assert (SZ : forall P (x : F), is_finite x = true -> Rabs (B2R x) <= P -> sized 0 P x) by (intros P x A B; split; [exact A|split; [apply Rabs_pos|exact B]]).
  assert (K0 : persp_sized n0 k0) by (split; [|split; [|split; [|split]]]; (apply SZ; [assumption|]); (apply (L0 0%nat) || apply (L0 1%nat) || apply (L0 2%nat))).
  assert (K1 : persp_sized n1 k1) by (split; [|split; [|split; [|split]]]; (apply SZ; [assumption|]); (apply (L1 0%nat) || apply (L1 1%nat))).
  destruct (norm_apps prec emax Hp He fsin fcos u UR U11 E17 k0 qh q c M n0 d0 U N C M1 K0 A1 B10 B30 d01 dz Wd0) as (R0 & _ & R2).
  destruct (norm_apps prec emax Hp He fsin fcos u UR U11 E17 k1 qh q c M n1 d0 U N C M1 K1 A2 B11 B31 d01 dz Wd0) as (_ & R1 & _).
  destruct (scale_facts prec emax Hp He fsin fcos u UR U11 E17 k0 qh q c M n0 d0 U N C M1 K0 A1 B10 d01 dz Wd0) as (_ & _ & S1 & S2).
  revert R0 R1 R2 S1 S2. rewrite !camera_matrix_eq. cbv zeta.
  set (raw := m33_mul34 (as_intrinsics_matrix (perspective_from k)) (matrix (from_rotation_and_camcenter qh c))).
  set (raw0 := m33_mul34 (as_intrinsics_matrix (perspective_from k0)) (matrix (from_rotation_and_camcenter qh c))).
  set (raw1 := m33_mul34 (as_intrinsics_matrix (perspective_from k1)) (matrix (from_rotation_and_camcenter qh c))).
  assert (E0 : p00 raw0 = p00 raw /\ p01 raw0 = p01 raw /\ p02 raw0 = p02 raw /\ p03 raw0 = p03 raw) by (unfold raw, raw0, raw1, k0, k1, as_intrinsics_matrix, perspective_from, m34_view33, m33_mul34; cbn [p00 p01 p02 p03 p10 p11 p12 p13 p20 p21 p22 p23 m00 m01 m02 m10 m11 m12 m20 m21 m22 ip_cache_p vx vy vz pp_fx pp_fy pp_skew pp_cx pp_cy]; split; [|split; [|split]]; reflexivity).
  assert (E2 : p20 raw0 = p20 raw /\ p21 raw0 = p21 raw /\ p22 raw0 = p22 raw /\ p23 raw0 = p23 raw) by (unfold raw, raw0, raw1, k0, k1, as_intrinsics_matrix, perspective_from, m34_view33, m33_mul34; cbn [p00 p01 p02 p03 p10 p11 p12 p13 p20 p21 p22 p23 m00 m01 m02 m10 m11 m12 m20 m21 m22 ip_cache_p vx vy vz pp_fx pp_fy pp_skew pp_cx pp_cy]; split; [|split; [|split]]; reflexivity).
  assert (E3 : p23 raw1 = p23 raw) by (unfold raw, raw1, k1, as_intrinsics_matrix, perspective_from, m34_view33, m33_mul34; cbn [p00 p01 p02 p03 p10 p11 p12 p13 p20 p21 p22 p23 m00 m01 m02 m10 m11 m12 m20 m21 m22 ip_cache_p vx vy vz pp_fx pp_fy pp_skew pp_cx pp_cy]; reflexivity).
  assert (E1 : p10 raw1 = p10 raw /\ p11 raw1 = p11 raw /\ p12 raw1 = p12 raw /\ p13 raw1 = p13 raw) by (unfold raw, raw0, raw1, k0, k1, as_intrinsics_matrix, perspective_from, m34_view33, m33_mul34; cbn [p00 p01 p02 p03 p10 p11 p12 p13 p20 p21 p22 p23 m00 m01 m02 m10 m11 m12 m20 m21 m22 ip_cache_p vx vy vz pp_fx pp_fy pp_skew pp_cx pp_cy]; split; [|split; [|split]]; reflexivity).
  assert (X0 : p00 (exact_matrix k0 q (vreal c)) = p00 (exact_matrix k q (vreal c)) /\ p01 (exact_matrix k0 q (vreal c)) = p01 (exact_matrix k q (vreal c)) /\ p02 (exact_matrix k0 q (vreal c)) = p02 (exact_matrix k q (vreal c)) /\ p03 (exact_matrix k0 q (vreal c)) = p03 (exact_matrix k q (vreal c))) by (unfold k0, k1, exact_matrix, kreal, kmat, hstack, mm, mv; cbn [p00 p01 p02 p03 p10 p11 p12 p13 p20 p21 p22 p23 m00 m01 m02 m10 m11 m12 m20 m21 m22 ip_cache_p vx vy vz pp_fx pp_fy pp_skew pp_cx pp_cy]; split; [|split; [|split]]; reflexivity).
  assert (X2 : p20 (exact_matrix k0 q (vreal c)) = p20 (exact_matrix k q (vreal c)) /\ p21 (exact_matrix k0 q (vreal c)) = p21 (exact_matrix k q (vreal c)) /\ p22 (exact_matrix k0 q (vreal c)) = p22 (exact_matrix k q (vreal c)) /\ p23 (exact_matrix k0 q (vreal c)) = p23 (exact_matrix k q (vreal c))) by (unfold k0, k1, exact_matrix, kreal, kmat, hstack, mm, mv; cbn [p00 p01 p02 p03 p10 p11 p12 p13 p20 p21 p22 p23 m00 m01 m02 m10 m11 m12 m20 m21 m22 ip_cache_p vx vy vz pp_fx pp_fy pp_skew pp_cx pp_cy]; split; [|split; [|split]]; reflexivity).
  assert (X1 : p10 (exact_matrix k1 q (vreal c)) = p10 (exact_matrix k q (vreal c)) /\ p11 (exact_matrix k1 q (vreal c)) = p11 (exact_matrix k q (vreal c)) /\ p12 (exact_matrix k1 q (vreal c)) = p12 (exact_matrix k q (vreal c)) /\ p13 (exact_matrix k1 q (vreal c)) = p13 (exact_matrix k q (vreal c))) by (unfold k0, k1, exact_matrix, kreal, kmat, hstack, mm, mv; cbn [p00 p01 p02 p03 p10 p11 p12 p13 p20 p21 p22 p23 m00 m01 m02 m10 m11 m12 m20 m21 m22 ip_cache_p vx vy vz pp_fx pp_fy pp_skew pp_cx pp_cy]; split; [|split; [|split]]; reflexivity).
  clearbody raw raw0 raw1. unfold m34_div, m34_map. cbn [p00 p01 p02 p03 p10 p11 p12 p13 p20 p21 p22 p23].
  destruct E0 as (-> & -> & -> & ->). destruct E2 as (-> & -> & -> & ->). destruct E1 as (-> & -> & -> & ->). rewrite E3.
  destruct X0 as (-> & -> & -> & ->). destruct X2 as (-> & -> & -> & ->). destruct X1 as (-> & -> & -> & ->).
  set (s := B2R (p23 raw)). clearbody s. intros R0 R1 R2 S1 S2. assert (SN : s <> 0) by (intros ->; rewrite Rabs_R0 in S1; lra). assert (SP : 0 < Rabs s) by (now apply Rabs_pos_lt).
  exists s. split; [exact S1|]. split; [exact S2|].
  unfold exact_matrix, kreal in R0, R1, R2.
  destruct (scaled_exact s fx fy skew cx cy q (vreal c) SN) as ((e00 & e01 & e02 & e03) & (e10 & e11 & e12 & e13) & (e20 & e21 & e22 & e23)).
  rewrite e00, e01, e02, e03 in R0. rewrite e10, e11, e12, e13 in R1. rewrite e20, e21, e22, e23 in R2. clear e00 e01 e02 e03 e10 e11 e12 e13 e20 e21 e22 e23.
  destruct (scaled_rows (/ s) fx fy skew cx cy q (vreal c) U) as (l0 & l1 & l2). rewrite Rabs_inv in l0, l1, l2.
  set (Y := scaled_matrix (/ s) fx fy skew cx cy q (vreal c)) in *. clearbody Y.
  assert (ROW : forall (a b e t : F) x y z w n kl kt W Wt, app a x (W / Rabs s) kl -> app b y (W / Rabs s) kl -> app e z (W / Rabs s) kl -> app t w (Wt / Rabs s) kt ->
    vlen (mkV3 x y z) = / Rabs s * n -> 0 <= n -> 0 <= kl -> 0 <= W -> 1.7321 * kl * W <= 440 * n -> kt * Wt <= 792 * (M * n) -> row_near (440 * u) (1.8 * M) a b e t x y z w).
  { intros a b e t x y z w n kl kt W Wt (ra & (Fa & Va) & Da & _) (rb & (Fb & Vb) & Db & _) (re & (Fe & Ve) & De & _) (rt & (Ft & Vt) & Dt & _) L n0' kl0 W0' Q1 Q2.
    assert (IP : 0 < / Rabs s) by (now apply Rinv_0_lt_compat). assert (IU : 0 < u * / Rabs s) by (now apply Rmult_lt_0_compat).
    split; [tauto|]. rewrite L. split.
    - rewrite Va, Vb, Ve. eapply Rle_trans; [apply (vlen_le3 _ _ _ (kl * u * (W / Rabs s))); try assumption; apply Rmult_le_pos; [apply Rmult_le_pos; lra|apply Rmult_le_pos; lra]|].
      replace (1.7321 * (kl * u * (W / Rabs s))) with (1.7321 * kl * W * (u * / Rabs s)) by (unfold Rdiv; ring). replace (440 * u * (/ Rabs s * n)) with (440 * n * (u * / Rabs s)) by ring. apply Rmult_le_compat_r; lra.
    - split; [exact Ft|]. rewrite Vt. eapply Rle_trans; [exact Dt|]. replace (kt * u * (Wt / Rabs s)) with (kt * Wt * (u * / Rabs s)) by (unfold Rdiv; ring).
      replace (440 * u * (1.8 * M) * (/ Rabs s * n)) with (792 * (M * n) * (u * / Rabs s)) by lra. apply Rmult_le_compat_r; lra. }
  assert (Mn0 : 0 <= M * n0) by (apply Rmult_le_pos; lra). assert (Mn1 : 0 <= M * n1) by (apply Rmult_le_pos; lra).
  destruct R0 as (a00 & a01 & a02 & a03). destruct R1 as (a10 & a11 & a12 & a13). destruct R2 as (a20 & a21 & a22 & a23).
  split; [|split].
  - cbn [p00 p01 p02 p03]. apply (ROW _ _ _ _ _ _ _ _ n0 _ _ _ _ a00 a01 a02 a03 l0); lra.
  - cbn [p10 p11 p12 p13]. apply (ROW _ _ _ _ _ _ _ _ n1 _ _ _ _ a10 a11 a12 a13 l1); lra.
  - cbn [p20 p21 p22 p23]. apply (ROW _ _ _ _ _ _ _ _ 1 _ _ _ _ a20 a21 a22 a23); lra.
Qed.

Lemma C109_lemma (E : Z) : (14 <= prec)%Z -> (0 <= E)%Z -> (4 * E + 17 <= emax)%Z ->
  let th := kspread fx fy skew cx cy in
  1408000000 * u <= th -> 2.2 * M <= th * bpow radix2 E -> n0 <= 0.99 * d0 * bpow radix2 E -> n1 <= 0.99 * d0 * bpow radix2 E ->
  exists k' qh' ch q', from_perspective_matrix (as_camera_matrix cam) = Some (Ok (camera_new (perspective_from k') (from_rotation_and_camcenter qh' ch))) /\
    near (11000000 * (u / th) * n0) (pp_fx k') fx /\ near (11000000 * (u / th) * n1) (pp_fy k') fy /\
    near (11000000 * (u / th) * n0) (pp_skew k') skew /\ near (11000000 * (u / th) * n0) (pp_cx k') cx /\ near (11000000 * (u / th) * n1) (pp_cy k') cy /\
    unit_quat q' /\ rotm q' = rotm q /\ quat_near (19360000 * (u / th)) qh' q' /\ vec_near (79200 * (u / th) * M) ch (vreal c).
Proof.
  intros P14 E0 EE th DT G1 G2 G3. destruct cam_rows as (s & S1 & S2 & RN).
  pose proof (th_pos fx fy skew cx cy ltac:(lra) ltac:(lra)) as TP. pose proof (th_le1 fx fy skew cx cy ltac:(lra) ltac:(lra)) as T1. fold th in TP, T1.
  pose proof (n0_pos fx skew cx ltac:(lra)) as n0P. pose proof (n1_pos fy cy ltac:(lra)) as n1P. pose proof (comp_len (mkV3 fx skew cx)) as L0. pose proof (comp_len (mkV3 fy cy 0)) as L1.
  assert (A1 : 1 <= n0). { pose proof (L0 0%nat) as H. cbn [comp vx] in H. rewrite Rabs_pos_eq in H by lra. unfold kr0. lra. }
  assert (A2 : 1 <= n1). { pose proof (L1 0%nat) as H. cbn [comp vx] in H. rewrite Rabs_pos_eq in H by lra. unfold kr1. lra. }
  assert (SN : s <> 0) by (intros ->; rewrite Rabs_R0 in S1; lra). assert (SP : 0 < Rabs s) by (now apply Rabs_pos_lt). assert (IP : 0 < / Rabs s) by (now apply Rinv_0_lt_compat).
  pose proof (ud_pos prec u UR) as U0. pose proof (bpow_gt_0 radix2 E) as EP. assert (EI : bpow radix2 (- E) = / bpow radix2 E) by apply bpow_opp.
  assert (E1 : 1 <= bpow radix2 E) by (replace 1 with (bpow radix2 0) by reflexivity; apply bpow_le; lia).
  assert (TE : th * bpow radix2 E <= 1 * bpow radix2 E) by (apply Rmult_le_compat_r; lra).
  assert (LO : bpow radix2 (- E) <= th * / Rabs s).
  { rewrite EI. apply Rmult_le_reg_r with (bpow radix2 E * Rabs s); [now apply Rmult_lt_0_compat|]. replace (/ bpow radix2 E * (bpow radix2 E * Rabs s)) with (Rabs s) by (field; lra). replace (th * / Rabs s * (bpow radix2 E * Rabs s)) with (th * bpow radix2 E) by (field; lra). lra. }
  assert (LON : forall n, 1 <= n -> bpow radix2 (- E) <= th * (/ Rabs s * n)).
  { intros n Hn. assert (0 < th * / Rabs s) by (now apply Rmult_lt_0_compat). assert (th * / Rabs s * 1 <= th * / Rabs s * n) by (apply Rmult_le_compat_l; lra). lra. }
  assert (HI : forall n, n <= 0.99 * d0 * bpow radix2 E -> / Rabs s * n <= bpow radix2 E).
  { intros n Hn. apply Rmult_le_reg_l with (Rabs s); [exact SP|]. replace (Rabs s * (/ Rabs s * n)) with n by (field; lra). assert (0.99 * d0 * bpow radix2 E <= Rabs s * bpow radix2 E) by (apply Rmult_le_compat_r; lra). lra. }
  assert (CC : vlen (vreal c) <= 1.8 * M).
  { destruct C as ((_ & _ & c1) & (_ & _ & c2) & (_ & _ & c3)). pose proof (vlen_le3 _ _ _ M ltac:(lra) c1 c2 c3). unfold vreal. lra. }
  assert (EM1 : bpow radix2 (- E) <= 1) by (replace 1 with (bpow radix2 0) by reflexivity; apply bpow_le; lia).
  assert (IN : / s <> 0) by (now apply Rinv_neq_0_compat).
  destruct (C108_lemma prec emax Hp He fsin fcos (as_camera_matrix cam) (/ s) fx fy skew cx cy q (vreal c) (440 * u) (1.8 * M) E P14 E0 EE IN ltac:(lra) ltac:(lra) U CC RN)
    as (k' & qh' & ch & q' & EQ & K1 & K2 & K3 & K4 & K5 & U' & R' & Nq & Nc);
    try (rewrite Rabs_inv); fold th; try lra.
  { assert (HI1 := HI 1). lra. }
  { now apply LON. } { now apply HI. } { now apply LON. } { now apply HI. }
  assert (DD : 440 * u / th = 440 * (u / th)) by (unfold Rdiv; ring).
  fold th in K1, K2, K3, K4, K5, Nq, Nc. rewrite DD in K1, K2, K3, K4, K5, Nq, Nc.
  assert (UT : 0 < u / th) by (apply Rdiv_lt_0_compat; lra).
  exists k', qh', ch, q'. split; [exact EQ|].
  assert (Q : forall n, 25000 * (440 * (u / th)) * n <= 11000000 * (u / th) * n) by (intros n; right; lra).
  split; [exact (near_weak prec emax _ _ _ _ K1 (Q _))|]. split; [exact (near_weak prec emax _ _ _ _ K2 (Q _))|]. split; [exact (near_weak prec emax _ _ _ _ K3 (Q _))|]. split; [exact (near_weak prec emax _ _ _ _ K4 (Q _))|]. split; [exact (near_weak prec emax _ _ _ _ K5 (Q _))|].
  split; [exact U'|]. split; [exact R'|]. split.
  - destruct Nq as (Q1 & Q2 & Q3 & Q4). split; [|split; [|split]]; eapply near_weak; try eassumption; lra.
  - apply (vec_near_weak prec emax _ _ _ _ Nc). right. lra.
Qed.
End RT.

Section F64.
Variables fsin fcos : f64 -> f64.
Local Hint Extern 0 (Ops f64) => exact (f64_ops fsin fcos) : typeclass_instances.
Local Notation u := (bpow radix2 (- (53))).
Lemma C109b_lemma (k : PerspectiveParams f64) (qh : Quat f64) q c : unit_quat q -> quat_near (8 * u) qh q -> vec_sized 100 c -> persp_sized 10000 k ->
  1 <= B2R (pp_fx k) -> 1 <= B2R (pp_fy k) -> Rabs (B2R (pp_skew k)) <= B2R (pp_fx k) -> Rabs (B2R (pp_cx k)) <= B2R (pp_fx k) -> Rabs (B2R (pp_cy k)) <= B2R (pp_fy k) ->
  1 <= Rabs (vz (mv (rotm q) (vreal c))) ->
  exists k' qh' ch q', from_perspective_matrix (as_camera_matrix (camera_new (perspective_from k) (from_rotation_and_camcenter qh c))) =
      Some (Ok (camera_new (perspective_from k') (from_rotation_and_camcenter qh' ch))) /\
    near (B2R (pp_fx k) * (6 / 1000000000)) (pp_fx k') (B2R (pp_fx k)) /\ near (B2R (pp_fy k) * (6 / 1000000000)) (pp_fy k') (B2R (pp_fy k)) /\
    near (B2R (pp_fx k) * (6 / 1000000000)) (pp_skew k') (B2R (pp_skew k)) /\ near (B2R (pp_fx k) * (6 / 1000000000)) (pp_cx k') (B2R (pp_cx k)) /\
    near (B2R (pp_fy k) * (6 / 1000000000)) (pp_cy k') (B2R (pp_cy k)) /\
    unit_quat q' /\ rotm q' = rotm q /\ quat_near (6 / 1000000000) qh' q' /\ vec_near (3 / 1000000000) ch (vreal c).
Proof.
  unfold f64 in *. intros Uq Nq Cs (Kfx & Kfy & Ks & Kcx & Kcy) FX FY SK CX CY DZ.
  assert (FK : is_finite (pp_fx k) = true /\ is_finite (pp_fy k) = true /\ is_finite (pp_skew k) = true /\ is_finite (pp_cx k) = true /\ is_finite (pp_cy k) = true).
  { split; [apply Kfx|split; [apply Kfy|split; [apply Ks|split; [apply Kcx|apply Kcy]]]]. }
  assert (FX' : 0 < B2R (pp_fx k)) by lra. assert (FY' : 0 < B2R (pp_fy k)) by lra.
  destruct (spread_ge _ _ _ _ _ FX' FY' SK CX CY) as (T & (B0 & B0') & (B1 & B1')).
  assert (Kx : B2R (pp_fx k) <= 10000) by (rewrite <- (Rabs_pos_eq (B2R (pp_fx k))) by lra; apply Kfx).
  assert (Ky : B2R (pp_fy k) <= 10000) by (rewrite <- (Rabs_pos_eq (B2R (pp_fy k))) by lra; apply Kfy). clear Kfx Kfy Ks Kcx Kcy.
  assert (UV : u = / 9007199254740992) by reflexivity. assert (BE : bpow radix2 40 = 1099511627776) by reflexivity.
  assert (BB : 1099511627776 <= bpow radix2 1024) by (rewrite <- BE; apply bpow_le; lia).
  destruct (C109_lemma 53 1024 f64_prec f64_emax fsin fcos u ltac:(lra) ltac:(rewrite UV; lra) ltac:(lia) k qh q c 100 1 Uq Nq Cs ltac:(lra) FK FX FY ltac:(lra) ltac:(lra) ltac:(lra) ltac:(lra) ltac:(lra) DZ ltac:(rewrite UV; lra) 40 ltac:(lia) ltac:(lia) ltac:(lia))
    as (k' & qh' & ch & q' & EQ & K1 & K2 & K3 & K4 & K5 & U' & R' & Nq' & Nc); [rewrite UV; lra|rewrite BE; lra|rewrite BE; lra|rewrite BE; lra|].
  revert EQ K1 K2 K3 K4 K5 Nq' Nc. set (th := kspread _ _ _ _ _) in *. set (n0 := kr0 _ _ _) in *. set (n1 := kr1 _ _) in *. clearbody th n0 n1. intros EQ K1 K2 K3 K4 K5 Nq' Nc.
  assert (UP : 0 < u) by (apply bpow_gt_0).
  assert (DT : u / th <= 5 / 2 * u).
  { apply Rmult_le_reg_r with th; [lra|]. replace (u / th * th) with u by (field; lra). assert (5 / 2 * u * (2 / 5) <= 5 / 2 * u * th) by (apply Rmult_le_compat_l; lra). lra. }
  assert (EN : forall n t, 0 <= n -> n <= 1.7321 * t -> 11000000 * (u / th) * n <= t * (6 / 1000000000)).
  { intros n t A B. assert (u / th * n <= 5 / 2 * u * n) by (apply Rmult_le_compat_r; lra). rewrite UV in *. lra. }
  pose proof (EN n0 (B2R (pp_fx k)) ltac:(lra) B0') as e0. pose proof (EN n1 (B2R (pp_fy k)) ltac:(lra) ltac:(lra)) as e1.
  exists k', qh', ch, q'. split; [exact EQ|].
  split; [apply (near_weak _ _ _ _ _ _ K1 e0)|]. split; [apply (near_weak _ _ _ _ _ _ K2 e1)|]. split; [apply (near_weak _ _ _ _ _ _ K3 e0)|]. split; [apply (near_weak _ _ _ _ _ _ K4 e0)|]. split; [apply (near_weak _ _ _ _ _ _ K5 e1)|].
  split; [exact U'|]. split; [exact R'|]. split.
  - destruct Nq' as (Q1 & Q2 & Q3 & Q4). assert (19360000 * (u / th) <= 6 / 1000000000) by (rewrite UV in *; lra). split; [|split; [|split]]; eapply near_weak; eassumption.
  - apply (vec_near_weak _ _ _ _ _ _ Nc). rewrite UV in *. lra.
Qed.
End F64.
