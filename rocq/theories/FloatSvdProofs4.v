(** * FloatSvdProofs4.v - rounding errors of the shift and of the 2x2 step (C110) *)

From Coq Require Import ZArith Reals List Bool Lra Lia Psatz.
From Flocq Require Import Core BinarySingleNaN.
From Verif Require Import Scalar Linalg Householder RayIntersection SymEigen Spec SpecGeom SpecIsect SpecFloatErr SpecFloatIsect RealBase VecLemmas ExtrinsicsProofs IsectBase IsectProofs SpectralProofs TriProofs FloatBase FloatRound FloatErrProofs FloatApprox FloatDirProofs FloatIsectProofs4 FloatQRProofs QRProofs
  SymEigenProofs SymEigenProofs2 SymEigenProofs4 FloatSvdProofs FloatSvdProofs2 FloatSvdProofs3.
Import ListNotations.
Local Open Scope R_scope.

Section F64.
Variables gsin gcos : binary_float 53 1024 -> binary_float 53 1024.
Local Notation F := (binary_float 53 1024).
Local Hint Extern 0 (Ops (binary_float 53 1024)) => exact (B_ops 53 1024 f64_prec f64_emax gsin gcos) : typeclass_instances.
Local Notation flr := (fl 53 1024).
Local Notation nmul := (near_mul gsin gcos).
Local Notation nadd := (near_add gsin gcos).
Local Notation nsub := (near_sub gsin gcos).

Lemma fl_signum0 (x : F) r : flr x r -> exists s, flr (o_signum x) s /\ s * s = 1 /\ s * r = Rabs r.
Proof.
  intros FX. destruct (Req_dec r 0) as [->|N]; [|exact (fl_signum 53 1024 f64_prec f64_emax gsin gcos x r FX N)].
  destruct FX as (X1 & X2). pose proof (fl_one' 53 1024 f64_prec f64_emax gsin gcos) as O. change (flr Bone 1) in O.
  cbn [o_signum B_ops]. destruct x as [b|b| |b m e B]; try discriminate; cbn [is_nan Bsign]; destruct b.
  1, 3: exists (- (1)); split; [apply (fl_neg 53 1024 f64_prec f64_emax gsin gcos _ _ O)|split; [ring|rewrite Rabs_R0; ring]].
  all: exists 1; split; [exact O|split; [ring|rewrite Rabs_R0; ring]].
Qed.
Lemma near_half : near 0 (o_lit 1 (-1) : F) (/ 2).
Proof.
  apply fl_near0. assert (E : IZR 1 * bpow radix2 (-1) = / 2) by (cbn; lra). rewrite <- E.
  apply (fl_lit 53 1024 f64_prec f64_emax gsin gcos).
  - rewrite Rmult_1_l. apply fmt_bpow; [exact f64_prec|lia].
  - rewrite Rmult_1_l, Rabs_pos_eq by apply bpow_ge_0. apply bpow_lt. lia.
Qed.

Lemma wilkinson_f (a b t : F) : is_finite a = true -> is_finite b = true -> is_finite t = true -> Rabs (B2R a) <= 3.2 -> Rabs (B2R b) <= 3.2 ->
  4e-13 <= Rabs (B2R t) <= 3.2 -> exists w, flr (wilkinson_shift a b t) w /\ Rabs w <= 7.
Proof.
  intros Fa Fb Ft La Lb (Lt & Ut). pose proof (fin_fl _ Ft) as Gt. pose proof (fin_fl _ Fb) as Gb. apply near_exact in Fa. apply near_exact in Fb. apply near_exact in Ft.
  set (A := B2R a) in *. set (B := B2R b) in *. set (T := B2R t) in *.
  pose proof u64_le as U. pose proof (bpow_gt_0 radix2 (- (53))) as U0. pose proof tiny64_le as TI. pose proof big64_ge as BG. set (u := bpow radix2 (- (53))) in *.
  pose proof (prod_bounds T T 4e-13 4e-13 3.2 3.2 ltac:(lra) ltac:(lra) ltac:(lra) ltac:(lra)) as TT. rewrite Rabs_pos_eq in TT by nra.
  (* the square *)
  destruct (mul_err 53 1024 f64_prec f64_emax gsin gcos t t T T (T * T) Gt Gt) as (sq & Fsq & Dsq & _).
  { lra. } { rewrite Rabs_pos_eq; lra. } { fold u. nra. }
  fold u in Dsq. assert (Psq : 0 < sq <= 1.01 * (T * T)) by (apply Rabs_le_inv in Dsq; nra).
  (* half the difference *)
  assert (N1 : near 1e-15 (o_sub a b) (A - B)).
  { apply (nsub 0 0 _ 6.5 _ _ _ _ Fa Fb); [|lra|lra]. replace (A - B) with (A + - B) by ring. eapply Rle_trans; [apply Rplus_le_compat_r, Rplus_le_compat_r, Rabs_triang|]. rewrite Rabs_Ropp. lra. }
  assert (LAB : Rabs (A - B) <= 6.4) by (replace (A - B) with (A + - B) by ring; eapply Rle_trans; [apply Rabs_triang|]; rewrite Rabs_Ropp; lra).
  assert (N2 : near 2e-15 (o_mul (o_sub a b) (o_lit 1 (-1))) ((A - B) * / 2)).
  { apply (nmul 1e-15 0 _ 6.5 1 7 _ _ _ _ N1 near_half); try lra. rewrite Rabs_pos_eq; lra. }
  set (dd := o_mul (o_sub a b) (o_lit 1 (-1))) in *. set (D := B2R dd).
  assert (FD : flr dd D) by (split; [apply N2|reflexivity]). assert (LD : Rabs D <= 3.3).
  { destruct N2 as (_ & N2). fold D in N2. assert (LH : Rabs ((A - B) * / 2) <= 3.2) by (rewrite Rabs_mult, (Rabs_pos_eq (/ 2)) by lra; lra).
    pose proof (abs_le_near _ _ _ _ N2 LH). lra. }
  destruct (fl_signum0 dd D FD) as (sg & FG & S1 & S2).
  assert (HH : sqrt (D * D + T * T) <= 4.7) by (apply (hyp_le D T 3.3 3.2); lra).
  destruct (abs_le_hyp D T) as (_ & HL).
  destruct (hypot_f gsin gcos dd t D T FD Gt) as (h & Fh & _ & Dh); [lra|]. specialize (Dh ltac:(lra)). set (H := sqrt (D * D + T * T)) in *. apply Rabs_le_inv in Dh.
  pose proof (fl_sign_mul 53 1024 f64_prec f64_emax gsin gcos _ _ _ _ FG Fh S1) as FS.
  assert (SA : Rabs sg = 1). { assert (Rabs sg * Rabs sg = 1) by (rewrite <- Rabs_mult, S1; apply Rabs_R1). pose proof (Rabs_pos sg). nra. }
  assert (DA : Rabs (D + sg * h) = Rabs D + h).
  { replace (D + sg * h) with (sg * (Rabs D + h)) by (rewrite <- S2; replace (sg * (sg * D + h)) with (sg * sg * D + sg * h) by ring; rewrite S1; ring).
    rewrite Rabs_mult, SA, Rmult_1_l. apply Rabs_pos_eq. pose proof (Rabs_pos D). lra. }
  pose proof (Rabs_pos D) as PD.
  destruct (add_err 53 1024 f64_prec f64_emax gsin gcos _ _ _ _ (Rabs D + h) FD FS) as (den & Fden & Dden & _).
  { lra. } { rewrite DA. lra. } { fold u. nra. }
  fold u in Dden. assert (Lden : 0.98 * Rabs T <= Rabs den).
  { rewrite Rabs_minus_sym in Dden. pose proof (Rabs_triang (D + sg * h - den) den) as TR. replace (D + sg * h - den + den) with (D + sg * h) in TR by ring. rewrite DA in TR. nra. }
  assert (Nden : den <> 0) by (intros Z; rewrite Z, Rabs_R0 in Lden; lra).
  assert (QL : Rabs (sq / den) <= 3.5).
  { unfold Rdiv. rewrite Rabs_mult, Rabs_inv, (Rabs_pos_eq sq) by lra. apply (Rmult_le_reg_r (Rabs den)); [lra|]. rewrite Rmult_assoc, Rinv_l by lra.
    assert (T * T = Rabs T * Rabs T) by (rewrite <- Rabs_mult, Rabs_pos_eq; [reflexivity|nra]).
    assert (Rabs T * Rabs T <= 3.2 * Rabs T) by (apply Rmult_le_compat_r; lra). lra. }
  destruct (div_err 53 1024 f64_prec f64_emax gsin gcos _ _ _ _ 3.5 Fsq Fden Nden) as (qq & Fqq & _ & Lqq); [lra|exact QL|fold u; lra|].
  fold u in Lqq. destruct (sub_err 53 1024 f64_prec f64_emax gsin gcos _ _ _ _ 6.9 Gb Fqq) as (w & Fw & _ & Lw).
  { lra. } { replace (B - qq) with (B + - qq) by ring. eapply Rle_trans; [apply Rabs_triang|]. rewrite Rabs_Ropp. lra. } { fold u. lra. }
  exists w. split; [|fold u in Lw; lra]. unfold wilkinson_shift.
  replace (o_eqb (o_mul t t) (o_zero : F)) with false. { exact Fw. }
  symmetry. apply not_true_is_false. intros E. apply (fl_eqb 53 1024 f64_prec f64_emax gsin gcos _ _ _ _ Fsq (fl_zero' 53 1024 f64_prec f64_emax gsin gcos)) in E. lra.
Qed.
End F64.
