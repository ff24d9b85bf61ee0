(** * FloatSvdProofs12.v - the singular value decomposition in double precision (C110) *)

From Coq Require Import ZArith Reals List Bool Lra Lia Psatz.
From Flocq Require Import Core BinarySingleNaN.
From Verif Require Import Scalar Linalg Householder RayIntersection SymEigen Spec SpecGeom SpecIsect SpecFloatErr SpecFloatIsect SpecSvd RealBase VecLemmas ExtrinsicsProofs IsectBase IsectProofs SpectralProofs TriProofs FloatBase FloatRound FloatErrProofs FloatApprox FloatDirProofs FloatIsectProofs4 FloatQRProofs FloatQRProofs2 QRProofs
  SymEigenProofs SymEigenProofs2 SymEigenProofs3 SymEigenProofs4 SymEigenProofs5 SymEigenProofs6 FloatSvdProofs FloatSvdProofs2 FloatSvdProofs3 FloatSvdProofs4 FloatSvdProofs5 FloatSvdProofs6 FloatSvdProofs7 FloatSvdProofs8 FloatSvdProofs9 FloatSvdProofs10 FloatSvdProofs11.
Import ListNotations.
Local Open Scope R_scope.
Local Notation Z9 := (mkM33 0 0 0 0 0 0 0 0 0).

Section Generic.
Context {T : Type} {O : Ops T}.
Local Open Scope S_scope.
Lemma swap01_e (m : M33 T) : swap_neg_columns m 0 1 = Some (mkM33 (m01 m) (- m00 m) (m02 m) (m11 m) (- m10 m) (m12 m) (m21 m) (- m20 m) (m22 m)).
Proof. destruct m; reflexivity. Qed.
Lemma swap02_e (m : M33 T) : swap_neg_columns m 0 2 = Some (mkM33 (m02 m) (m01 m) (- m00 m) (m12 m) (m11 m) (- m10 m) (m22 m) (m21 m) (- m20 m)).
Proof. destruct m; reflexivity. Qed.
Lemma swap12_e (m : M33 T) : swap_neg_columns m 1 2 = Some (mkM33 (m00 m) (m02 m) (- m01 m) (m10 m) (m12 m) (- m11 m) (m20 m) (m22 m) (- m21 m)).
Proof. destruct m; reflexivity. Qed.
Lemma norm0_e (m : M33 T) : exists r, col_norm_squared m 0 = Some r.
Proof. destruct m; eexists; reflexivity. Qed.
Lemma norm1_e (m : M33 T) : exists r, col_norm_squared m 1 = Some r.
Proof. destruct m; eexists; reflexivity. Qed.
Lemma norm2_e (m : M33 T) : exists r, col_norm_squared m 2 = Some r.
Proof. destruct m; eexists; reflexivity. Qed.
End Generic.

Lemma appr_mm_l a b g e : orthogonal g -> appr a b e -> appr (mm g a) (mm g b) e.
Proof. intros O A v. unfold vdist. rewrite !mv_mm, <- mv_vsub, orthogonal_len by exact O. apply A. Qed.
Lemma comp3_near (v w : V3 R) e : vdist v w <= e -> Rabs (vx v - vx w) <= e /\ Rabs (vy v - vy w) <= e /\ Rabs (vz v - vz w) <= e.
Proof.
  intros D. unfold vdist, vlen in D. destruct v as [a b c], w as [a' b' c']. unfold vsub, vdot in D. cbn [vx vy vz] in *.
  pose proof (sqn (a - a')) as A. pose proof (sqn (b - b')) as B. pose proof (sqn (c - c')) as C.
  split; [|split]; (eapply Rle_trans; [|exact D]); rewrite <- sqrt_Rsqr_abs; apply sqrt_le_1_alt; unfold Rsqr; lra.
Qed.
Lemma mv_cols m : mv m (mkV3 1 0 0) = mcol0 m /\ mv m (mkV3 0 1 0) = mcol1 m /\ mv m (mkV3 0 0 1) = mcol2 m.
Proof. destruct m as [a b c d e f g h i]. split; [|split]; vring. Qed.
Lemma unit_len : vlen (mkV3 1 0 0) = 1 /\ vlen (mkV3 0 1 0) = 1 /\ vlen (mkV3 0 0 1) = 1.
Proof. split; [|split]; apply vlen_1; vring. Qed.
Lemma appr_cols a b e : appr a b e -> vdist (mcol0 a) (mcol0 b) <= e /\ vdist (mcol1 a) (mcol1 b) <= e /\ vdist (mcol2 a) (mcol2 b) <= e.
Proof.
  intros A. destruct (mv_cols a) as (<- & <- & <-), (mv_cols b) as (<- & <- & <-). destruct unit_len as (U1 & U2 & U3).
  pose proof (A (mkV3 1 0 0)). pose proof (A (mkV3 0 1 0)). pose proof (A (mkV3 0 0 1)). rewrite U1, U2, U3 in *. lra.
Qed.
Lemma cols_entries a b e : vdist (mcol0 a) (mcol0 b) <= e -> vdist (mcol1 a) (mcol1 b) <= e -> vdist (mcol2 a) (mcol2 b) <= e -> entries_le e a b.
Proof.
  intros A B C. apply comp3_near in A, B, C. unfold mcol0, mcol1, mcol2 in *. cbn [vx vy vz] in *. unfold entries_le. tauto.
Qed.
Lemma appr_entries a b e : appr a b e -> entries_le e a b.
Proof. intros A. apply appr_cols in A. destruct A as (A & B & C). now apply cols_entries. Qed.
Lemma dot_near x y x' y' e k : vdist x' x <= e -> vdist y' y <= e -> vlen x <= k -> vlen y' <= k -> Rabs (vdot x' y' - vdot x y) <= 2 * (e * k).
Proof.
  intros D1 D2 L1 L2. replace (vdot x' y' - vdot x y) with (vdot (vsub x' x) y' + vdot x (vsub y' y)) by (destruct x, y, x', y'; ru_spec; ring).
  unfold vdist in *. pose proof (cauchy (vsub x' x) y') as C1. pose proof (cauchy x (vsub y' y)) as C2. pose proof (vlen_nonneg (vsub x' x)). pose proof (vlen_nonneg (vsub y' y)). pose proof (vlen_nonneg x). pose proof (vlen_nonneg y').
  assert (vlen (vsub x' x) * vlen y' <= e * k) by (apply Rmult_le_compat; lra). assert (vlen x * vlen (vsub y' y) <= k * e) by (apply Rmult_le_compat; lra).
  eapply Rle_trans; [apply Rabs_triang|]. lra.
Qed.
Lemma least_appr a b l e : at_least l a -> appr b a e -> at_least (l - e) b.
Proof.
  intros A D v. specialize (A v). specialize (D v). unfold vdist in D. pose proof (vlen_triangle (vsub (mv a v) (mv b v)) (mv b v)) as T.
  replace (vadd (vsub (mv a v) (mv b v)) (mv b v)) with (mv a v) in T by (generalize (mv a v) (mv b v); intros; vring).
  fold (vdist (mv a v) (mv b v)) in T. rewrite FloatViewProofs.vdist_sym in T. unfold vdist in T. lra.
Qed.

Section F64.
Variables gsin gcos : binary_float 53 1024 -> binary_float 53 1024.
Local Notation F := (binary_float 53 1024).
Local Hint Extern 0 (Ops (binary_float 53 1024)) => exact (B_ops 53 1024 f64_prec f64_emax gsin gcos) : typeclass_instances.
Local Notation flr := (fl 53 1024).
Local Notation u := (bpow radix2 (- (53))).

(** ** Ordering the columns *)
Lemma mfin_of (m : M33 F) : is_finite (m00 m) = true -> is_finite (m01 m) = true -> is_finite (m02 m) = true -> is_finite (m10 m) = true -> is_finite (m11 m) = true -> is_finite (m12 m) = true -> is_finite (m20 m) = true -> is_finite (m21 m) = true -> is_finite (m22 m) = true -> mfin m.
Proof. intros. unfold mfin, mat_near, near, mreal. cbn [m00 m01 m02 m10 m11 m12 m20 m21 m22]. rewrite !Rminus_eq_0, Rabs_R0. repeat split; try assumption; lra. Qed.
Lemma neg_f (x : F) : is_finite x = true -> is_finite (o_neg x) = true /\ B2R (o_neg x) = - B2R x.
Proof. intros H. exact (fl_neg 53 1024 f64_prec f64_emax gsin gcos x (B2R x) (fin_fl _ H)). Qed.
Local Ltac swap_tac := intros FM; apply mfin_fl in FM; let a := fresh in destruct FM as ((F0 & _) & (F1 & _) & (F2 & _) & (F3 & _) & (F4 & _) & (F5 & _) & (F6 & _) & (F7 & _) & (F8 & _)).
Lemma swap01_f (m : M33 F) : mfin m -> exists m', swap_neg_columns m 0 1 = Some m' /\ mfin m' /\ mreal m' = mm (mreal m) p01.
Proof.
  swap_tac. rewrite swap01_e. eexists. split; [reflexivity|]. destruct (neg_f _ F0) as (G0 & V0), (neg_f _ F3) as (G3 & V3'), (neg_f _ F6) as (G6 & V6). split; [apply mfin_of; assumption|].
  unfold mreal. cbn [m00 m01 m02 m10 m11 m12 m20 m21 m22]. rewrite V0, V3', V6. unfold p01. apply M33_eq; ru_spec; ring.
Qed.
Lemma swap02_f (m : M33 F) : mfin m -> exists m', swap_neg_columns m 0 2 = Some m' /\ mfin m' /\ mreal m' = mm (mreal m) p02.
Proof.
  swap_tac. rewrite swap02_e. eexists. split; [reflexivity|]. destruct (neg_f _ F0) as (G0 & V0), (neg_f _ F3) as (G3 & V3'), (neg_f _ F6) as (G6 & V6). split; [apply mfin_of; assumption|].
  unfold mreal. cbn [m00 m01 m02 m10 m11 m12 m20 m21 m22]. rewrite V0, V3', V6. unfold p02. apply M33_eq; ru_spec; ring.
Qed.
Lemma swap12_f (m : M33 F) : mfin m -> exists m', swap_neg_columns m 1 2 = Some m' /\ mfin m' /\ mreal m' = mm (mreal m) p12.
Proof.
  swap_tac. rewrite swap12_e. eexists. split; [reflexivity|]. destruct (neg_f _ F1) as (G0 & V0), (neg_f _ F4) as (G3 & V3'), (neg_f _ F7) as (G6 & V6). split; [apply mfin_of; assumption|].
  unfold mreal. cbn [m00 m01 m02 m10 m11 m12 m20 m21 m22]. rewrite V0, V3', V6. unfold p12. apply M33_eq; ru_spec; ring.
Qed.
(** the columns [b] of the product and the factor [v] follow an exact rotation *)
Definition cinv (M : M33 R) (a g D : R) (b v : M33 F) : Prop :=
  exists Q, qnear v Q a /\ solved (mm (mtr M) M) Q D /\ mfin b /\ appr (mreal b) (mm M Q) g.
Lemma cinv_step M a g D b v i j p :
  (forall m, mfin m -> exists m' : M33 F, swap_neg_columns m i j = Some m' /\ mfin m' /\ mreal m' = mm (mreal m) p) -> orthogonal p ->
  (forall s w d, solved s w d -> solved s (mm w p) d) -> forall less, cinv M a g D b v ->
  exists b' v', order_columns less i j b v = Some (b', v') /\ cinv M a g D b' v'.
Proof.
  intros SW OP SP less (Q & (FV & OQ & AQ) & SO & FB & AB). unfold order_columns. destruct less.
  - destruct (SW b FB) as (b' & -> & FB' & VB). destruct (SW v FV) as (v' & -> & FV' & VV). cbn [bind]. exists b', v'. split; [reflexivity|].
    exists (mm Q p). split; [split; [exact FV'|split; [now apply orthogonal_mm|rewrite VV; now apply appr_mm_r]]|]. split; [now apply SP|]. split; [exact FB'|]. rewrite VB, mm_assoc. now apply appr_mm_r.
  - exists b, v. split; [reflexivity|]. exists Q. split; [split; [exact FV|split; assumption]|]. split; [exact SO|]. split; assumption.
Qed.

(** ** The factors *)
Lemma pad_col (b : M33 F) : pad 53 1024 f64_prec f64_emax gsin gcos [m00 b; m10 b; m20 b] = mcol0 (mreal b) /\
  pad 53 1024 f64_prec f64_emax gsin gcos [m01 b; m11 b; m21 b] = mcol1 (mreal b) /\ pad 53 1024 f64_prec f64_emax gsin gcos [m02 b; m12 b; m22 b] = mcol2 (mreal b).
Proof. repeat split; reflexivity. Qed.
Lemma comb_cols m p q r : vadd (vadd (vscl p (mcol0 m)) (vscl q (mcol1 m))) (vscl r (mcol2 m)) = mv m (mkV3 p q r).
Proof. destruct m as [a b c d e f g h i]. vring. Qed.
Lemma cols_indep m k lam l : 0 <= lam -> at_most k m -> at_least lam m -> l * l * (k * k) <= lam * lam -> indep l (mcol0 m) (mcol1 m) (mcol2 m).
Proof.
  intros L0 AM AL H p q r. cbv zeta. rewrite comb_cols. pose proof (at_most_pos _ _ AM) as K0.
  assert (C : forall x, vlen x <= k -> vdot x x <= k * k). { intros x Lx. rewrite <- vlen_sq. pose proof (vlen_nonneg x). apply Rmult_le_compat; lra. }
  destruct (mv_cols m) as (M0 & M1 & M2). destruct unit_len as (U0 & U1 & U2).
  pose proof (AM (mkV3 1 0 0)) as A0. pose proof (AM (mkV3 0 1 0)) as A1. pose proof (AM (mkV3 0 0 1)) as A2. rewrite M0, U0 in A0. rewrite M1, U1 in A1. rewrite M2, U2 in A2.
  pose proof (C (mcol0 m) ltac:(lra)) as C0. pose proof (C (mcol1 m) ltac:(lra)) as C1. pose proof (C (mcol2 m) ltac:(lra)) as C2.
  pose proof (gram_pd lam m (mkV3 p q r) L0 AL) as G. rewrite <- dot_gram in G.
  pose proof (sqn p) as P0. pose proof (sqn q) as Q0. pose proof (sqn r) as R0. pose proof (sqn l) as LL.
  assert (X0 : p * p * vdot (mcol0 m) (mcol0 m) <= p * p * (k * k)) by (apply Rmult_le_compat_l; lra).
  assert (X1 : q * q * vdot (mcol1 m) (mcol1 m) <= q * q * (k * k)) by (apply Rmult_le_compat_l; lra).
  assert (X2 : r * r * vdot (mcol2 m) (mcol2 m) <= r * r * (k * k)) by (apply Rmult_le_compat_l; lra).
  assert (V : vdot (mkV3 p q r) (mkV3 p q r) = p * p + q * q + r * r) by (ru_spec; ring). rewrite V in G.
  apply Rle_trans with (l * l * ((p * p + q * q + r * r) * (k * k))); [apply Rmult_le_compat_l; lra|].
  replace (l * l * ((p * p + q * q + r * r) * (k * k))) with ((l * l * (k * k)) * (p * p + q * q + r * r)) by ring.
  eapply Rle_trans; [|exact G]. apply Rmult_le_compat_r; lra.
Qed.
Lemma entries_near e (m : M33 F) w : mfin m -> entries_le e (mreal m) w -> mat_near e m w.
Proof.
  intros FM E. apply mfin_fl in FM. unfold fl in FM. unfold entries_le, mreal in E. cbn [m00 m01 m02 m10 m11 m12 m20 m21 m22] in E. unfold mat_near, near. tauto.
Qed.
End F64.
