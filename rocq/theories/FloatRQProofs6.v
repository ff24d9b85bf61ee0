(** * FloatRQProofs6.v - rounding error of from_perspective_matrix: statements (C108) *)

From Coq Require Import ZArith Reals List Bool Lra Lia Psatz.
From Flocq Require Import Core BinarySingleNaN.
From Verif Require Import Scalar Linalg Householder Bundles Perspective Extrinsics Camera Spec SpecFloatErr SpecFloatRQ RealBase VecLemmas FromViewProofs SpectralProofs CamMatProofs FloatBase FloatRound FloatErrProofs FloatApprox FloatRigidProofs
  FloatDirProofs FloatViewProofs QRProofs JacProofs FloatIsectProofs3 FloatIsectProofs4 FloatQRProofs FloatQRProofs2 RQPerturbProofs FloatRQProofs FloatRQProofs2 FloatRQProofs3 FloatRQProofs4 FloatRQProofs5.
Import ListNotations.
Local Open Scope R_scope.

Section FPM.
Variables (prec emax : Z) (Hp : Prec_gt_0 prec) (He : Prec_lt_emax prec emax).
Variables fsin fcos : binary_float prec emax -> binary_float prec emax.
Local Notation F := (binary_float prec emax).
Local Hint Extern 0 (Ops (binary_float prec emax)) =>
  exact (B_ops prec emax Hp He fsin fcos) : typeclass_instances.
Local Notation u := (bpow radix2 (- prec)).

Lemma C108_lemma (p : M34 F) s fx fy skew cx cy q c D C (E : Z) : (14 <= prec)%Z -> (0 <= E)%Z -> (4 * E + 17 <= emax)%Z ->
  s <> 0 -> 0 < fx -> 0 < fy -> unit_quat q -> vlen c <= C ->
  rows_near D C p (scaled_matrix s fx fy skew cx cy q c) ->
  let th := kspread fx fy skew cx cy in let n0 := kr0 fx skew cx in let n1 := kr1 fy cy in
  u <= D -> 3200000 * D <= th ->
  bpow radix2 (- E) <= th * Rabs s -> Rabs s <= bpow radix2 E ->
  bpow radix2 (- E) <= th * (Rabs s * n0) -> Rabs s * n0 <= bpow radix2 E ->
  bpow radix2 (- E) <= th * (Rabs s * n1) -> Rabs s * n1 <= bpow radix2 E ->
  bpow radix2 (- E) <= C <= bpow radix2 E ->
  exists k qh ch q', from_perspective_matrix p = Some (Ok (camera_new (perspective_from k) (from_rotation_and_camcenter qh ch))) /\
    near (25000 * (D / th) * n0) (pp_fx k) fx /\ near (25000 * (D / th) * n1) (pp_fy k) fy /\
    near (25000 * (D / th) * n0) (pp_skew k) skew /\ near (25000 * (D / th) * n0) (pp_cx k) cx /\ near (25000 * (D / th) * n1) (pp_cy k) cy /\
    unit_quat q' /\ rotm q' = rotm q /\ quat_near (44000 * (D / th)) qh q' /\ vec_near (100 * (D / th) * C) ch c.
Proof.
  intros P14 E0 E10 S0 FX FY Uq CC N th n0 n1 UD DT A1 A2 A3 A4 A5 A6 A7.
  destruct (fpm_near prec emax Hp He fsin fcos P14 ltac:(lia) s fx fy skew cx cy D C (rotm q) c E (rotm_rotation q Uq) S0 FX FY UD DT E0 ltac:(lia) (conj A1 A2) (conj A5 A6) (conj A3 A4) A7 CC p N)
    as (k & qh & ch & q' & EQ & K1 & K2 & K3 & K4 & K5 & U' & R' & Nq & Nc).
  pose proof (D_th prec fx fy skew cx cy D FX FY UD) as DD. pose proof (D0 prec D UD) as DP.
  pose proof (n0_pos fx skew cx FX) as n0P. pose proof (n1_pos fy cy FY) as n1P. pose proof (bpow_gt_0 radix2 (- E)) as EP. fold th in DD |- *. fold n0 n1 in n0P, n1P |- *.
  assert (DN : forall n, 0 <= n -> 0 <= D / th * n) by (intros n Hn; apply Rmult_le_pos; lra).
  pose proof (DN n0 ltac:(lra)). pose proof (DN n1 ltac:(lra)). pose proof (DN C ltac:(lra)).
  assert (QW : forall e e' (x : Quat F) y, quat_near e x y -> e <= e' -> quat_near e' x y).
  { intros e e' x y (Q1 & Q2 & Q3 & Q4) L. split; [|split; [|split]]; eapply near_weak; eassumption. }
  exists k, qh, ch, q'. split; [exact EQ|].
  split; [apply (near_weak prec emax _ _ _ _ K1); fold th n0 n1; lra|]. split; [apply (near_weak prec emax _ _ _ _ K2); fold th n0 n1; lra|]. split; [apply (near_weak prec emax _ _ _ _ K3); fold th n0 n1; lra|].
  split; [apply (near_weak prec emax _ _ _ _ K4); fold th n0 n1; lra|]. split; [apply (near_weak prec emax _ _ _ _ K5); fold th n0 n1; lra|].
  split; [exact U'|]. split; [exact R'|]. split; [apply (QW _ _ _ _ Nq); fold th; lra|].
  apply (vec_near_weak prec emax _ _ _ _ Nc). fold th. lra.
Qed.

End FPM.

(** rounding of every entry *)
Lemma entries_rows {prec emax : Z} (p : M34 (binary_float prec emax)) x D C : 0 <= D -> Rabs (p03 x) <= C * vlen (mkV3 (p00 x) (p01 x) (p02 x)) -> Rabs (p13 x) <= C * vlen (mkV3 (p10 x) (p11 x) (p12 x)) -> Rabs (p23 x) <= C * vlen (mkV3 (p20 x) (p21 x) (p22 x)) ->
  entries_near D p x -> rows_near D C p x.
Proof.
  intros D0' L0 L1 L2. assert (ROW : forall (a b e t : binary_float prec emax) r0 r1 r2 r3, Rabs r3 <= C * vlen (mkV3 r0 r1 r2) -> near (D * Rabs r0) a r0 -> near (D * Rabs r1) b r1 -> near (D * Rabs r2) e r2 -> near (D * Rabs r3) t r3 -> row_near D C a b e t r0 r1 r2 r3).
  { intros a b e t r0 r1 r2 r3 L (Fa & Ha) (Fb & Hb) (Fe & He') (Ft & Ht). split; [tauto|]. split.
    - rewrite <- (Rabs_pos_eq D D0') at 1. rewrite <- vlen_vscl. unfold vlen. apply sqrt_le_1_alt. unfold vdot, vscl. cbn [vx vy vz].
      assert (SQ : forall z r, Rabs z <= D * Rabs r -> z * z <= D * r * (D * r)).
      { intros z r H. apply Rsqr_le_abs_1. rewrite Rabs_mult, (Rabs_pos_eq D D0'). exact H. }
      pose proof (SQ _ _ Ha). pose proof (SQ _ _ Hb). pose proof (SQ _ _ He'). lra.
    - split; [exact Ft|]. eapply Rle_trans; [exact Ht|]. rewrite Rmult_assoc. apply Rmult_le_compat_l; assumption. }
  intros ((a00 & a01 & a02 & a03) & (a10 & a11 & a12 & a13) & (a20 & a21 & a22 & a23)). split; [|split]; apply ROW; assumption.
Qed.
Lemma scaled_last s fx fy skew cx cy q c : let x := scaled_matrix s fx fy skew cx cy q c in
  Rabs (p03 x) <= vlen c * vlen (mkV3 (p00 x) (p01 x) (p02 x)) /\ Rabs (p13 x) <= vlen c * vlen (mkV3 (p10 x) (p11 x) (p12 x)) /\ Rabs (p23 x) <= vlen c * vlen (mkV3 (p20 x) (p21 x) (p22 x)).
Proof.
  cbv zeta. unfold scaled_matrix, hstack. cbn [p00 p01 p02 p03 p10 p11 p12 p13 p20 p21 p22 p23]. set (X := mscl s _). clearbody X. rewrite mv_rows. cbn [vx vy vz]. rewrite !Rabs_Ropp.
  split; [|split]; rewrite Rmult_comm; apply cauchy_schwarz.
Qed.
Lemma sqrt_ge_sq a b : 0 <= a -> a * a <= b -> a <= sqrt b.
Proof. intros A H. rewrite <- (sqrt_square a A). now apply sqrt_le_1_alt. Qed.
Lemma sqrt_le_sq a b : 0 <= a -> b <= a * a -> sqrt b <= a.
Proof. intros A H. rewrite <- (sqrt_square a A). now apply sqrt_le_1_alt. Qed.
Lemma spread_ge fx fy skew cx cy : 0 < fx -> 0 < fy -> Rabs skew <= fx -> Rabs cx <= fx -> Rabs cy <= fy ->
  2 / 5 <= kspread fx fy skew cx cy /\ fx <= kr0 fx skew cx <= 1.7321 * fx /\ fy <= kr1 fy cy <= 1.4143 * fy.
Proof.
  intros FX FY S X Y. assert (SQ : forall a b, 0 < b -> Rabs a <= b -> a * a <= b * b) by (intros a b B A; apply Rsqr_le_abs_1; rewrite (Rabs_pos_eq b); lra).
  pose proof (SQ _ _ FX S) as S2. pose proof (SQ _ _ FX X) as X2. pose proof (SQ _ _ FY Y) as Y2. pose proof (Rle_0_sqr skew) as a1. pose proof (Rle_0_sqr cx) as a2. pose proof (Rle_0_sqr cy) as a3. unfold Rsqr in *.
  assert (B0 : fx <= kr0 fx skew cx <= 1.7321 * fx).
  { unfold kr0, vlen, vdot. cbn [vx vy vz]. split; [apply sqrt_ge_sq; nra|]. apply sqrt_le_sq; nra. }
  assert (B1 : fy <= kr1 fy cy <= 1.4143 * fy).
  { unfold kr1, vlen, vdot. cbn [vx vy vz]. split; [apply sqrt_ge_sq; nra|]. apply sqrt_le_sq; nra. }
  split; [|split; assumption]. unfold kspread. apply Rmult_le_reg_r with (kr0 fx skew cx * kr1 fy cy); [apply Rmult_lt_0_compat; lra|].
  replace (fx * fy / (kr0 fx skew cx * kr1 fy cy) * (kr0 fx skew cx * kr1 fy cy)) with (fx * fy) by (field; split; lra).
  assert (kr0 fx skew cx * kr1 fy cy <= 1.7321 * fx * (1.4143 * fy)) by (apply Rmult_le_compat; lra). assert (0 < fx * fy) by (now apply Rmult_lt_0_compat). nra.
Qed.

Section F64.
Variables fsin fcos : f64 -> f64.
Local Hint Extern 0 (Ops f64) => exact (f64_ops fsin fcos) : typeclass_instances.
Lemma C108b_lemma (p : M34 f64) s fx fy skew cx cy q c :
  / 1000000 <= Rabs s <= 1000000 -> 1 <= fx <= 100000 -> 1 <= fy <= 100000 -> Rabs skew <= fx -> Rabs cx <= fx -> Rabs cy <= fy ->
  unit_quat q -> vlen c <= 1000 -> entries_near (bpow radix2 (-52)) p (scaled_matrix s fx fy skew cx cy q c) ->
  exists k qh ch q', from_perspective_matrix p = Some (Ok (camera_new (perspective_from k) (from_rotation_and_camcenter qh ch))) /\
    near (fx * (3 / 100000000000)) (pp_fx k) fx /\ near (fy * (3 / 100000000000)) (pp_fy k) fy /\
    near (fx * (3 / 100000000000)) (pp_skew k) skew /\ near (fx * (3 / 100000000000)) (pp_cx k) cx /\ near (fy * (3 / 100000000000)) (pp_cy k) cy /\
    unit_quat q' /\ rotm q' = rotm q /\ quat_near (3 / 100000000000) qh q' /\ vec_near (6 / 100000000000) ch c.
Proof.
  intros (s1 & s2) (x1 & x2) (y1 & y2) SK X Y Uq CC N. destruct (spread_ge fx fy skew cx cy ltac:(lra) ltac:(lra) SK X Y) as (T & (B0 & B0') & (B1 & B1')).
  destruct (scaled_last s fx fy skew cx cy q c) as (l0 & l1 & l2). set (D := bpow radix2 (-52)) in *.
  assert (DV : D = / 4503599627370496) by reflexivity.
  assert (N' : rows_near D 1000 p (scaled_matrix s fx fy skew cx cy q c)).
  { assert (W : forall a v, Rabs a <= vlen c * vlen v -> Rabs a <= 1000 * vlen v) by (intros a v H; eapply Rle_trans; [exact H|]; apply Rmult_le_compat_r; [apply vlen_nonneg|exact CC]).
    apply entries_rows; [apply Rlt_le, bpow_gt_0|apply W; exact l0|apply W; exact l1|apply W; exact l2|exact N]. }
  assert (BE : bpow radix2 (- (40)) = / 1099511627776 /\ bpow radix2 40 = 1099511627776) by (split; reflexivity). destruct BE as (BE1 & BE2).
  assert (DU : bpow radix2 (- (53)) <= D) by (apply bpow_le; lia). clearbody D.
  set (th := kspread fx fy skew cx cy) in *. set (n0 := kr0 fx skew cx) in *. set (n1 := kr1 fy cy) in *.
  assert (TS : / 2500000 <= th * Rabs s) by (assert (2 / 5 * / 1000000 <= th * Rabs s) by (apply Rmult_le_compat; lra); lra).
  assert (SN : forall n, 1 <= n -> n <= 173210 -> / 2500000 <= th * (Rabs s * n) /\ Rabs s * n <= 1000000 * 173210).
  { intros n A1 A2. split; [|apply Rmult_le_compat; lra]. rewrite <- Rmult_assoc. assert (th * Rabs s * 1 <= th * Rabs s * n) by (apply Rmult_le_compat_l; lra). lra. }
  destruct (SN n0 ltac:(lra) ltac:(lra)) as (g0 & g0'). destruct (SN n1 ltac:(lra) ltac:(lra)) as (g1 & g1').
  destruct (C108_lemma 53 1024 f64_prec f64_emax fsin fcos p s fx fy skew cx cy q c D 1000 40 ltac:(lia) ltac:(lia) ltac:(lia)) as (k & qh & ch & q' & EQ & K1 & K2 & K3 & K4 & K5 & U' & R' & Nq & Nc);
    try assumption; try lra; [intros ->; rewrite Rabs_R0 in s1; lra|fold th; lra|fold th; lra|fold th n0; lra|fold n0; lra|fold th n1; lra|fold n1; lra|].
  fold th in K1, K2, K3, K4, K5, Nq, Nc. fold n0 in K1, K3, K4. fold n1 in K2, K5.
  assert (DT : D / th <= 5 / 2 * D).
  { apply Rmult_le_reg_r with th; [lra|]. replace (D / th * th) with D by (field; lra). assert (5 / 2 * D * (2 / 5) <= 5 / 2 * D * th) by (apply Rmult_le_compat_l; lra). lra. }
  assert (EN : forall n t, 0 <= n -> n <= 1.7321 * t -> 25000 * (D / th) * n <= t * (3 / 100000000000)).
  { intros n t A B. assert (D / th * n <= 5 / 2 * D * n) by (apply Rmult_le_compat_r; lra). rewrite DV in *. lra. }
  pose proof (EN n0 fx ltac:(lra) B0') as e0. pose proof (EN n1 fy ltac:(lra) ltac:(lra)) as e1.
  exists k, qh, ch, q'. split; [exact EQ|].
  split; [apply (near_weak _ _ _ _ _ _ K1 e0)|]. split; [apply (near_weak _ _ _ _ _ _ K2 e1)|]. split; [apply (near_weak _ _ _ _ _ _ K3 e0)|]. split; [apply (near_weak _ _ _ _ _ _ K4 e0)|]. split; [apply (near_weak _ _ _ _ _ _ K5 e1)|].
  split; [exact U'|]. split; [exact R'|]. split.
  - destruct Nq as (Q1 & Q2 & Q3 & Q4). assert (44000 * (D / th) <= 3 / 100000000000) by (rewrite DV in *; lra). split; [|split; [|split]]; eapply near_weak; eassumption.
  - apply (vec_near_weak _ _ _ _ _ _ Nc). rewrite DV in *. lra.
Qed.
End F64.
