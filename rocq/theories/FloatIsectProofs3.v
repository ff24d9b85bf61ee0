(** * FloatIsectProofs3.v - the pseudo inverse in double precision (C91) *)

From Coq Require Import ZArith Reals List Bool Lra Lia Psatz.
From Flocq Require Import Core BinarySingleNaN.
From Verif Require Import Scalar Linalg Bundles RayIntersection Spec SpecIsect SpecTri SpecFloatErr SpecFloatIsect RealBase VecLemmas FloatBase FloatRound FloatErrProofs FloatErrProofs2 FloatApprox FloatDirProofs IsectBase IsectProofs.
Import ListNotations.

Section Pinv.
Variables gsin gcos : binary_float 53 1024 -> binary_float 53 1024.
Local Notation F := (binary_float 53 1024).
Local Hint Extern 0 (Ops (binary_float 53 1024)) =>
  exact (B_ops 53 1024 f64_prec f64_emax gsin gcos) : typeclass_instances.
Local Open Scope R_scope.
Local Notation v := (bpow radix2 (- (53))).
Local Notation tiny := (bpow radix2 (2 - 1024)).
Local Notation big := (bpow radix2 1024).
Local Notation fl64 := (fl 53 1024).
Local Notation app := (app 53 1024 (bpow radix2 (- (53)))).

Lemma lit_cutoff : fl64 lit_1em7 cutoff.
Proof.
  unfold lit_1em7. replace cutoff with (IZR 7555786372591432 * bpow radix2 (-76)).
  - apply (fl_lit 53 1024 f64_prec f64_emax gsin gcos).
    + apply generic_format_FLT. apply FLT_spec with (f := Float radix2 7555786372591432 (-76)).
      * reflexivity.
      * cbn. lia.
      * cbn. lia.
    + rewrite Rabs_pos_eq.
      * apply Rlt_trans with 1; [|apply (bpow_lt radix2 0); lia]. simpl. lra.
      * apply Rmult_le_pos; [lra|apply bpow_ge_0].
  - unfold cutoff. f_equal. simpl. lra.
Qed.

Variables (kappa sigma : R) (fu fvt : M33 F) (U Vt : M33 R) (fs : V3 F).
Hypotheses (K : 0 <= kappa <= 100) (OU : orthogonal U) (OV : orthogonal Vt).
Hypotheses (NU : mat_near (kappa * v) fu U) (NV : mat_near (kappa * v) fvt Vt) (FS : vec_finite fs).
Hypotheses (S1 : cutoff < sigma <= 2 ^ 50) (SX : sigma <= B2R (vx fs)) (SY : sigma <= B2R (vy fs)) (SZ : sigma <= B2R (vz fs)).

Definition inv_or_zero (x : F) : F := if o_ltb lit_1em7 x then o_div o_one x else o_zero.
Lemma sig_pos : 0 < sigma. Proof. pose proof cutoff_pos. lra. Qed.
Lemma isig : / 2 ^ 50 <= / sigma <= 2 ^ 24.
Proof.
  pose proof sig_pos. pose proof cutoff_gt. split; [apply Rinv_le_contravar; lra|].
  apply Rle_trans with (/ (99 / 1000000000)); [apply Rinv_le_contravar; lra|]. simpl. lra.
Qed.
Lemma tiny_le : tiny <= / 2 ^ 50.
Proof. replace (/ 2 ^ 50) with (bpow radix2 (-50)) by (simpl; lra). apply bpow_le. lia. Qed.
Lemma big_ge : 2 ^ 100 <= big.
Proof. replace (2 ^ 100) with (bpow radix2 100) by (simpl; lra). apply bpow_le. lia. Qed.
Lemma big_isig : 1000 * / sigma < big.
Proof. pose proof big_ge as B. pose proof isig as I. assert (1000 * 2 ^ 24 < 2 ^ 100) by (simpl; lra). lra. Qed.
Lemma inv_app x : is_finite x = true -> sigma <= B2R x ->
  app (inv_or_zero x) (finv (B2R x)) (/ sigma) 1 /\ finv (B2R x) = / B2R x.
Proof.
  intros FX SX0. pose proof sig_pos as S0. apply fl_finite in FX. unfold inv_or_zero.
  assert (C : o_ltb lit_1em7 x = true) by (apply (fl_ltb 53 1024 f64_prec f64_emax gsin gcos _ _ _ _ lit_cutoff FX); lra).
  rewrite C. assert (FV : finv (B2R x) = / B2R x).
  { unfold finv, Rltb. destruct (Rlt_dec cutoff (B2R x)); [unfold Rdiv; ring|lra]. }
  split; [|exact FV]. rewrite FV.
  assert (A : Rabs (1 / B2R x) <= / sigma).
  { unfold Rdiv. rewrite Rmult_1_l, Rabs_pos_eq; [apply Rinv_le_contravar; lra|]. left. apply Rinv_0_lt_compat. lra. }
  destruct (div_err 53 1024 f64_prec f64_emax gsin gcos o_one x 1 (B2R x) (/ sigma) (fl_one 53 1024 f64_prec f64_emax gsin gcos) FX) as (r & FR & D & _).
  - lra.
  - pose proof tiny_le. pose proof isig. lra.
  - exact A.
  - pose proof big_isig. pose proof isig. pose proof (u11 53 ltac:(lia)). pose proof (u_pos' 53). 
    assert (0 < / sigma) by now apply Rinv_0_lt_compat. nra.
  - exists r. split; [exact FR|]. unfold Rdiv in *. rewrite Rmult_1_l in *. split; [lra|exact A].
Qed.

Lemma orth_entries m : orthogonal m ->
  (Rabs (m00 m) <= 1 /\ Rabs (m01 m) <= 1 /\ Rabs (m02 m) <= 1) /\
  (Rabs (m10 m) <= 1 /\ Rabs (m11 m) <= 1 /\ Rabs (m12 m) <= 1) /\
  (Rabs (m20 m) <= 1 /\ Rabs (m21 m) <= 1 /\ Rabs (m22 m) <= 1).
Proof.
  intros O. assert (H : mm m (mtr m) = mI) by apply O.
  pose proof (f_equal m00 H) as H1. pose proof (f_equal m11 H) as H2. pose proof (f_equal m22 H) as H3. clear H.
  destruct m as [a b c d e f g h i]. cbv [mm mtr mI vdot mrow0 mrow1 mrow2 mcol0 mcol1 mcol2 vx vy vz m00 m01 m02 m10 m11 m12 m20 m21 m22] in *.
  assert (Q : forall x, x * x <= 1 -> Rabs x <= 1) by (intros x Hx; apply Rabs_le; nra).
  repeat split; apply Q; clear - H1 H2 H3; nra.
Qed.
Lemma near_entry x a : near (kappa * v) x a -> Rabs a <= 1 -> app x a 1 kappa.
Proof. intros N A. apply (near_app 53 1024 (bpow radix2 (- (53))) (kappa * v)); [exact N|lra|exact A]. Qed.
Lemma us_app x a y b : app x a 1 kappa -> app y b (/ sigma) 1 -> app (o_mul x y) (a * b) (/ sigma) (kappa + 2.2).
Proof.
  intros X Y. rewrite <- (Rmult_1_l (/ sigma)). pose proof isig. pose proof tiny_le. pose proof big_isig.
  apply (app_mul 53 1024 f64_prec f64_emax gsin gcos _ (Rle_refl _) (u11 53 ltac:(lia)) x y a b 1 (/ sigma) kappa 1); try assumption; try lra.
Qed.
Lemma row_app x y z x' y' z' a b c a' b' c' :
  app x a (/ sigma) (kappa + 2.2) -> app y b (/ sigma) (kappa + 2.2) -> app z c (/ sigma) (kappa + 2.2) ->
  app x' a' 1 kappa -> app y' b' 1 kappa -> app z' c' 1 kappa ->
  app (x * x' + y * y' + z * z')%S (a * a' + b * b' + c * c') (3 * / sigma) (2.2 * kappa + 5.8).
Proof.
  intros X Y Z X' Y' Z'. pose proof isig as I. pose proof tiny_le as T. pose proof big_isig as B.
  assert (P : forall x x' a a', app x a (/ sigma) (kappa + 2.2) -> app x' a' 1 kappa -> app (o_mul x x') (a * a') (/ sigma * 1) (2.1 * kappa + 3.5)).
  { intros. apply (app_mul 53 1024 f64_prec f64_emax gsin gcos _ (Rle_refl _) (u11 53 ltac:(lia)) _ _ _ _ (/ sigma) 1 (kappa + 2.2) kappa); try assumption; try lra.
    assert ((kappa + 2.2) * kappa <= 102.2 * kappa) by (apply Rmult_le_compat_r; lra). nra. }
  apply (app_grow 53 1024 _ (Rle_refl _)) with (W := / sigma * 1 + / sigma * 1 + / sigma * 1) (k := 2.2 * kappa + 5.8); [|lra|lra].
  apply (app_add 53 1024 f64_prec f64_emax gsin gcos _ (Rle_refl _) (u11 53 ltac:(lia)) _ _ _ _ (/ sigma * 1 + / sigma * 1) (/ sigma * 1) (2.12 * kappa + 4.6) (2.1 * kappa + 3.5) (2.12 * kappa + 4.6)); try lra.
  2:{ now apply P. }
  apply (app_add 53 1024 f64_prec f64_emax gsin gcos _ (Rle_refl _) (u11 53 ltac:(lia)) _ _ _ _ (/ sigma * 1) (/ sigma * 1) (2.1 * kappa + 3.5) (2.1 * kappa + 3.5) (2.1 * kappa + 3.5)); try lra; now apply P.
Qed.

Definition mat_app (W k : R) (m : M33 F) (a : M33 R) : Prop :=
  app (m00 m) (m00 a) W k /\ app (m01 m) (m01 a) W k /\ app (m02 m) (m02 a) W k /\
  app (m10 m) (m10 a) W k /\ app (m11 m) (m11 a) W k /\ app (m12 m) (m12 a) W k /\
  app (m20 m) (m20 a) W k /\ app (m21 m) (m21 a) W k /\ app (m22 m) (m22 a) W k.

Lemma pinv_app : exists m, svd_pseudo_inverse (mkSVD (Some fu) fs (Some fvt)) lit_1em7 = Some m /\
  mat_app (3 * / sigma) (2.2 * kappa + 5.8) m (pinv_of U (vreal fs) Vt).
Proof.
  unfold svd_pseudo_inverse.
  assert (C : o_ltb (lit_1em7 : F) o_zero = false).
  { apply not_true_is_false. intros H. apply (fl_ltb 53 1024 f64_prec f64_emax gsin gcos _ _ _ _ lit_cutoff (fl_zero 53 1024 f64_prec f64_emax gsin gcos)) in H.
    pose proof cutoff_pos. lra. }
  rewrite C. cbn [svd_recompose svd_u svd_s svd_vt bind]. eexists. split; [reflexivity|].
  destruct FS as (FX & FY & FZ).
  destruct (inv_app _ FX SX) as (IX & _). destruct (inv_app _ FY SY) as (IY & _). destruct (inv_app _ FZ SZ) as (IZ & _).
  unfold inv_or_zero in IX, IY, IZ.
  destruct NU as (u00 & u01 & u02 & u10 & u11' & u12 & u20 & u21 & u22). destruct NV as (w00 & w01 & w02 & w10 & w11 & w12 & w20 & w21 & w22).
  destruct (orth_entries U OU) as ((a00 & a01 & a02) & (a10 & a11 & a12) & (a20 & a21 & a22)).
  destruct (orth_entries Vt OV) as ((b00 & b01 & b02) & (b10 & b11 & b12) & (b20 & b21 & b22)).
  assert (Q : pinv_of U (vreal fs) Vt = 
    let a := finv (B2R (vx fs)) in let b := finv (B2R (vy fs)) in let c := finv (B2R (vz fs)) in
    mkM33
     (m00 U * a * m00 Vt + m01 U * b * m10 Vt + m02 U * c * m20 Vt) (m10 U * a * m00 Vt + m11 U * b * m10 Vt + m12 U * c * m20 Vt) (m20 U * a * m00 Vt + m21 U * b * m10 Vt + m22 U * c * m20 Vt)
     (m00 U * a * m01 Vt + m01 U * b * m11 Vt + m02 U * c * m21 Vt) (m10 U * a * m01 Vt + m11 U * b * m11 Vt + m12 U * c * m21 Vt) (m20 U * a * m01 Vt + m21 U * b * m11 Vt + m22 U * c * m21 Vt)
     (m00 U * a * m02 Vt + m01 U * b * m12 Vt + m02 U * c * m22 Vt) (m10 U * a * m02 Vt + m11 U * b * m12 Vt + m12 U * c * m22 Vt) (m20 U * a * m02 Vt + m21 U * b * m12 Vt + m22 U * c * m22 Vt)).
  { unfold pinv_of, vreal. cbn [vx vy vz]. cbv zeta. generalize (finv (B2R (vx fs))) (finv (B2R (vy fs))) (finv (B2R (vz fs))). intros a b c.
    clear. destruct U, Vt. unfold mdiag; apply M33_eq; ru_spec; ring. }
  rewrite Q. cbv zeta. unfold mat_app. cbn [m33_transpose m33_mul m00 m01 m02 m10 m11 m12 m20 m21 m22 vx vy vz].
  repeat split; apply row_app; first [apply us_app; [apply near_entry; assumption|assumption]|apply near_entry; assumption].
Qed.
End Pinv.
