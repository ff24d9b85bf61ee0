(** * FloatSvdProofs8.v - rounding errors of the tridiagonalization (C110) *)

From Coq Require Import ZArith Reals List Bool Lra Lia Psatz.
From Flocq Require Import Core BinarySingleNaN.
From Verif Require Import Scalar Linalg Householder RayIntersection SymEigen Spec SpecGeom SpecIsect SpecFloatErr SpecFloatIsect RealBase VecLemmas ExtrinsicsProofs IsectBase IsectProofs SpectralProofs TriProofs FloatBase FloatRound FloatErrProofs FloatApprox FloatDirProofs FloatIsectProofs4 FloatQRProofs QRProofs
  SymEigenProofs SymEigenProofs2 SymEigenProofs4 FloatSvdProofs FloatSvdProofs2 FloatSvdProofs3 FloatSvdProofs4 FloatSvdProofs5 FloatSvdProofs7.
Import ListNotations.
Local Open Scope R_scope.

Section F64.
Variables gsin gcos : binary_float 53 1024 -> binary_float 53 1024.
Local Notation F := (binary_float 53 1024).
Local Hint Extern 0 (Ops (binary_float 53 1024)) => exact (B_ops 53 1024 f64_prec f64_emax gsin gcos) : typeclass_instances.
Local Notation flr := (fl 53 1024).
Local Notation u := (bpow radix2 (- (53))).
Local Notation nmul := (near_mul gsin gcos).
Local Notation nadd := (near_add gsin gcos).
Local Notation nsub := (near_sub gsin gcos).

Lemma near_le e e' (x : F) a : near e x a -> e <= e' -> near e' x a.
Proof. intros (A & B) H. split; [exact A|lra]. Qed.
Lemma vlen_xy X Y : Rabs X <= 4 -> Rabs Y <= 4 -> 1e-110 < Rabs X \/ 1e-110 < Rabs Y -> 1e-110 <= vlen (mkV3 X Y 0) <= 6.
Proof.
  intros LX LY L. unfold vlen, vdot. cbn [vx vy vz]. rewrite Rmult_0_l, Rplus_0_r. destruct (abs_le_hyp X Y). split; [destruct L; lra|apply (hyp_le X Y 4 4); lra].
Qed.
Lemma bpow400 : bpow radix2 (- (400)) <= 1e-110 /\ 6 <= bpow radix2 400.
Proof.
  split; [simpl; lra|]. apply Rle_trans with (bpow radix2 3); [simpl; lra|apply bpow_le; lia].
Qed.
Lemma comp_near (v w : V3 R) e : vdist v w <= e -> Rabs (vx v - vx w) <= e /\ Rabs (vy v - vy w) <= e.
Proof.
  intros D. unfold vdist, vlen in D. destruct v as [a b c], w as [a' b' c']. unfold vsub, vdot in D. cbn [vx vy vz] in *.
  pose proof (sqn (a - a')) as A. pose proof (sqn (b - b')) as B. pose proof (sqn (c - c')) as C.
  split; (eapply Rle_trans; [|exact D]); rewrite <- sqrt_Rsqr_abs; apply sqrt_le_1_alt; unfold Rsqr; lra.
Qed.
Lemma zero_dec X : Rabs X <= 1e-110 \/ 1e-110 < Rabs X.
Proof. destruct (Rle_lt_dec (Rabs X) 1e-110); auto. Qed.
Lemma unit_le w1 w2 : w1 * w1 + w2 * w2 = 1 -> Rabs w1 <= 1 /\ Rabs w2 <= 1.
Proof. intros H. pose proof (sqn w1). pose proof (sqn w2). split; apply Rsqr_incr_0_var; try lra; rewrite <- Rsqr_abs; unfold Rsqr; lra. Qed.
Lemma refl_tiny X Y w1 w2 s : Rabs X <= 1e-110 -> Rabs Y <= 1e-110 -> Rabs w1 <= 1 -> Rabs w2 <= 1 -> s * s = 1 -> Rabs (s * (X - 2 * (w1 * X + w2 * Y) * w1)) <= 1e-100.
Proof.
  intros LX LY L1 L2 S. assert (SA : Rabs s = 1). { assert (Rabs s * Rabs s = 1) by (rewrite <- Rabs_mult, S; apply Rabs_R1). pose proof (Rabs_pos s). nra. }
  rewrite Rabs_mult, SA, Rmult_1_l. pose proof (Rabs_pos X). pose proof (Rabs_pos Y). pose proof (Rabs_pos w1). pose proof (Rabs_pos w2).
  assert (P : Rabs (w1 * X + w2 * Y) <= 2e-110). { eapply Rle_trans; [apply Rabs_triang|]. rewrite !Rabs_mult. assert (Rabs w1 * Rabs X <= 1 * 1e-110) by (apply Rmult_le_compat; lra). assert (Rabs w2 * Rabs Y <= 1 * 1e-110) by (apply Rmult_le_compat; lra). lra. }
  eapply Rle_trans; [apply (abs_sub_le _ _ 1e-110 (4e-110 * 1)); [lra|]|lra]. rewrite !Rabs_mult, (Rabs_pos_eq 2) by lra. apply Rmult_le_compat; try lra. apply Rmult_le_pos; [lra|apply Rabs_pos].
Qed.

(** the axis, for a column of two or one entries *)
Lemma axis2_f (x y : F) X Y : flr x X -> flr y Y -> Rabs X <= 4 -> Rabs Y <= 4 ->
  exists ax ay nrm nz w1 w2 s n, reflection_axis_mut [x; y] = ([ax; ay], nrm, nz) /\ near 8e-15 ax w1 /\ near 8e-15 ay w2 /\ flr (o_signum nrm) s /\ s * s = 1 /\
    near 1e-14 (o_abs nrm) n /\ ((nz = true /\ w1 * w1 + w2 * w2 = 1) \/ (nz = false /\ w1 = 0 /\ w2 = 0)) /\
    Rabs (s * (X - 2 * (w1 * X + w2 * Y) * w1) - n) <= 1e-14 /\ Rabs (s * (Y - 2 * (w1 * X + w2 * Y) * w2)) <= 1e-14.
Proof.
  intros FX FY LX LY. pose proof u64_le as U. pose proof (bpow_gt_0 radix2 (- (53))) as U0.
  assert (D : (Rabs X <= 1e-110 /\ Rabs Y <= 1e-110) \/ (1e-110 < Rabs X \/ 1e-110 < Rabs Y)) by (destruct (zero_dec X), (zero_dec Y); auto).
  destruct D as [(TX & TY)|BIG].
  - unfold reflection_axis_mut, ldot. cbn [dot_acc map]. cbv zeta. rewrite !zero_add_sq.
    destruct (to_exp_fl 53 1024 f64_prec f64_emax gsin gcos x X FX) as (m & g & sg & -> & FM & FG & S1 & S2). rewrite ?zero_add_sq.
    destruct (tiny_core gsin gcos x y m g X Y sg FX FY TX TY FM FG S1 S2) as ((v & Fv & Lv) & [(-> & FA)|(-> & W1 & W2 & WW & N1 & N2 & _)]); cbn [negb].
    + destruct (fl_signum0 gsin gcos _ _ Fv) as (s & Fs & Ss & _). do 4 eexists. exists 0, 0, s, 0. split; [reflexivity|].
      split; [apply (fl_near _ _ _ _ FA); rewrite Rminus_0_r; lra|]. split; [apply (fl_near _ _ _ _ FY); rewrite Rminus_0_r; lra|]. split; [exact Fs|]. split; [exact Ss|].
      split; [apply (fl_near _ _ _ _ (fl_abs 53 1024 f64_prec f64_emax gsin gcos _ _ Fv)); rewrite Rminus_0_r, Rabs_Rabsolu; lra|]. split; [right; auto|].
      assert (Z0 : Rabs 0 <= 1) by (rewrite Rabs_R0; lra).
      pose proof (refl_tiny X Y 0 0 s TX TY Z0 Z0 Ss). pose proof (refl_tiny Y X 0 0 s TY TX Z0 Z0 Ss) as H2. rewrite Rminus_0_r. split; [lra|]. rewrite (Rplus_comm (0 * X)). lra.
    + destruct (fl_signum0 gsin gcos _ _ (fl_neg 53 1024 f64_prec f64_emax gsin gcos _ _ Fv)) as (s & Fs & Ss & _). do 4 eexists. exists W1, W2, s, 0. split; [reflexivity|].
      split; [eapply near_le; [exact N1|lra]|]. split; [eapply near_le; [exact N2|lra]|]. split; [exact Fs|]. split; [exact Ss|].
      split; [apply (fl_near _ _ _ _ (fl_abs 53 1024 f64_prec f64_emax gsin gcos _ _ (fl_neg 53 1024 f64_prec f64_emax gsin gcos _ _ Fv))); rewrite Rminus_0_r, Rabs_Rabsolu, Rabs_Ropp; lra|]. split; [left; auto|].
      destruct (unit_le _ _ WW) as (U1 & U2). pose proof (refl_tiny X Y W1 W2 s TX TY U1 U2 Ss). pose proof (refl_tiny Y X W2 W1 s TY TX U2 U1 Ss) as H2. rewrite Rminus_0_r. split; [lra|]. rewrite (Rplus_comm (W1 * X)). lra.
  - pose proof (vlen_xy X Y LX LY BIG) as VL. destruct bpow400 as (B1 & B2).
    assert (PD : pad 53 1024 f64_prec f64_emax gsin gcos [x; y] = mkV3 X Y 0) by (unfold pad, e_; cbn [nth]; destruct FX as (_ & ->), FY as (_ & ->); reflexivity).
    destruct (axis_app 53 1024 f64_prec f64_emax gsin gcos ltac:(lia) ltac:(lia) [x; y] 400) as (axis & d & s & w & E & L & FA & DA & WW & SS & FS & EQ & AP & OUT).
    { cbn; lia. } { constructor; [apply FX|constructor; [apply FY|constructor]]. } { lia. } { lia. } { rewrite PD. lra. }
    rewrite PD in *. destruct axis as [|ax [|ay [|? ?]]]; try discriminate. pose proof (OUT 2%nat ltac:(cbn; lia)) as W3. destruct w as [w1 w2 w3]. cbn [comp vz] in W3. subst w3. clear OUT.
    unfold vdot in WW. cbn [vx vy vz] in WW. destruct (comp_near _ _ _ DA) as (D1 & D2). unfold pad, e_ in D1, D2. cbn [nth vx vy] in D1, D2. inversion FA as [|? ? FA1 FA2]. inversion FA2 as [|? ? FA3 _]. subst.
    exists ax, ay, d, true, w1, w2, s, (vlen (mkV3 X Y 0)). split; [exact E|]. split; [split; [exact FA1|lra]|]. split; [split; [exact FA3|lra]|]. split; [exact FS|]. split; [exact SS|].
    split. { destruct AP as (r & Fr & Dr & _). apply (fl_near _ _ _ _ Fr). eapply Rle_trans; [exact Dr|]. assert (4 * u * vlen (mkV3 X Y 0) <= 4 * u * 6) by (apply Rmult_le_compat_l; lra). lra. }
    split; [left; split; [reflexivity|lra]|]. apply V3_inv in EQ. unfold vscl, vsub, vdot in EQ. cbn [vx vy vz] in EQ. destruct EQ as (E1 & E2 & _).
    split.
    + replace (s * (X - 2 * (w1 * X + w2 * Y) * w1)) with (s * (X - 2 * (w1 * X + w2 * Y + 0 * 0) * w1)) by ring. rewrite E1, Rminus_eq_0, Rabs_R0. lra.
    + replace (s * (Y - 2 * (w1 * X + w2 * Y) * w2)) with (s * (Y - 2 * (w1 * X + w2 * Y + 0 * 0) * w2)) by ring. rewrite E2, Rabs_R0. lra.
Qed.
Lemma axis1_f (x : F) X : flr x X -> Rabs X <= 4 ->
  exists ax nrm nz w s n, reflection_axis_mut [x] = ([ax], nrm, nz) /\ near 8e-15 ax w /\ flr (o_signum nrm) s /\ s * s = 1 /\
    near 1e-14 (o_abs nrm) n /\ ((nz = true /\ w * w = 1) \/ (nz = false /\ w = 0)) /\ Rabs (s * (X - 2 * (w * X) * w) - n) <= 1e-14.
Proof.
  intros FX LX. pose proof u64_le as U. pose proof (bpow_gt_0 radix2 (- (53))) as U0. pose proof (fl_zero' 53 1024 f64_prec f64_emax gsin gcos) as FZ.
  assert (Z0 : Rabs 0 <= 1) by (rewrite Rabs_R0; lra). assert (Z1 : Rabs 0 <= 1e-110) by (rewrite Rabs_R0; lra).
  destruct (zero_dec X) as [TX|BIG].
  - unfold reflection_axis_mut, ldot. cbn [dot_acc map]. cbv zeta. rewrite !zero_add_sq.
    destruct (to_exp_fl 53 1024 f64_prec f64_emax gsin gcos x X FX) as (m & g & sg & -> & FM & FG & S1 & S2). rewrite ?zero_add_sq.
    destruct (tiny_core gsin gcos x o_zero m g X 0 sg FX FZ TX Z1 FM FG S1 S2) as ((v & Fv & Lv) & [(C & FA)|(C & W1 & W2 & WW & N1 & N2 & Y0)]); rewrite add_zero_sq in *; rewrite C; cbn [negb].
    + destruct (fl_signum0 gsin gcos _ _ Fv) as (s & Fs & Ss & _). do 3 eexists. exists 0, s, 0. split; [reflexivity|].
      split; [apply (fl_near _ _ _ _ FA); rewrite Rminus_0_r; lra|]. split; [exact Fs|]. split; [exact Ss|].
      split; [apply (fl_near _ _ _ _ (fl_abs 53 1024 f64_prec f64_emax gsin gcos _ _ Fv)); rewrite Rminus_0_r, Rabs_Rabsolu; lra|]. split; [right; auto|].
      pose proof (refl_tiny X 0 0 0 s TX Z1 Z0 Z0 Ss) as H. rewrite Rminus_0_r. rewrite (Rmult_0_r 0), Rplus_0_r in H. lra.
    + destruct (Y0 eq_refl) as (-> & FD). rewrite (add_sq_fl0 gsin gcos _ _ FD) in N1. rewrite Rmult_0_r, Rplus_0_r in WW.
      destruct (fl_signum0 gsin gcos _ _ (fl_neg 53 1024 f64_prec f64_emax gsin gcos _ _ Fv)) as (s & Fs & Ss & _). do 3 eexists. exists W1, s, 0. split; [reflexivity|].
      split; [eapply near_le; [exact N1|lra]|]. split; [exact Fs|]. split; [exact Ss|].
      split; [apply (fl_near _ _ _ _ (fl_abs 53 1024 f64_prec f64_emax gsin gcos _ _ (fl_neg 53 1024 f64_prec f64_emax gsin gcos _ _ Fv))); rewrite Rminus_0_r, Rabs_Rabsolu, Rabs_Ropp; lra|]. split; [left; auto|].
      destruct (unit_le W1 0) as (U1 & _); [lra|]. pose proof (refl_tiny X 0 W1 0 s TX Z1 U1 Z0 Ss) as H. rewrite Rminus_0_r. rewrite (Rmult_0_r 0), Rplus_0_r in H. lra.
  - pose proof (vlen_xy X 0 LX ltac:(rewrite Rabs_R0; lra) (or_introl BIG)) as VL. destruct bpow400 as (B1 & B2).
    assert (PD : pad 53 1024 f64_prec f64_emax gsin gcos [x] = mkV3 X 0 0) by (unfold pad, e_; cbn [nth]; destruct FX as (_ & ->); reflexivity).
    destruct (axis_app 53 1024 f64_prec f64_emax gsin gcos ltac:(lia) ltac:(lia) [x] 400) as (axis & d & s & w & E & L & FA & DA & WW & SS & FS & EQ & AP & OUT).
    { cbn; lia. } { constructor; [apply FX|constructor]. } { lia. } { lia. } { rewrite PD. lra. }
    rewrite PD in *. destruct axis as [|ax [|? ?]]; try discriminate. pose proof (OUT 2%nat ltac:(cbn; lia)) as W3. pose proof (OUT 1%nat ltac:(cbn; lia)) as W2. destruct w as [w1 w2 w3]. cbn [comp vz vy] in W2, W3. subst w3 w2. clear OUT.
    unfold vdot in WW. cbn [vx vy vz] in WW. destruct (comp_near _ _ _ DA) as (D1 & _). unfold pad, e_ in D1. cbn [nth vx vy] in D1. inversion FA as [|? ? FA1 FA2]. subst.
    exists ax, d, true, w1, s, (vlen (mkV3 X 0 0)). split; [exact E|]. split; [split; [exact FA1|lra]|]. split; [exact FS|]. split; [exact SS|].
    split. { destruct AP as (r & Fr & Dr & _). apply (fl_near _ _ _ _ Fr). eapply Rle_trans; [exact Dr|]. assert (4 * u * vlen (mkV3 X 0 0) <= 4 * u * 6) by (apply Rmult_le_compat_l; lra). lra. }
    split; [left; split; [reflexivity|lra]|]. apply V3_inv in EQ. unfold vscl, vsub, vdot in EQ. cbn [vx vy vz] in EQ. destruct EQ as (E1 & _ & _).
    replace (s * (X - 2 * (w1 * X) * w1)) with (s * (X - 2 * (w1 * X + 0 * 0 + 0 * 0) * w1)) by ring. rewrite E1, Rminus_eq_0, Rabs_R0. lra.
Qed.

(** approximations with a bound on the exact value *)
Definition nb e A (x : F) a := near e x a /\ Rabs a <= A.
Lemma nb_mul e f g A B C (x y : F) a b : nb e A x a -> nb f B y b -> A * B <= C -> 1e-100 <= (A + e) * (B + f) <= 1e6 ->
  A * f + B * e + e * f + (A + e) * (B + f) * 1.12e-16 <= g -> nb g C (o_mul x y) (a * b).
Proof.
  intros (N1 & L1) (N2 & L2) LC W G. split; [apply (nmul e f g A B ((A + e) * (B + f))); auto; lra|].
  rewrite Rabs_mult. pose proof (Rabs_pos a). pose proof (Rabs_pos b). apply Rle_trans with (A * B); [apply Rmult_le_compat; lra|lra].
Qed.
Lemma nb_add e f g A B C (x y : F) a b : nb e A x a -> nb f B y b -> A + B <= C -> 1e-100 <= A + B + e + f <= 1e6 ->
  e + f + (A + B + e + f) * 1.12e-16 <= g -> nb g C (o_add x y) (a + b).
Proof.
  intros (N1 & L1) (N2 & L2) LC W G. pose proof (abs_add_le a b A B L1 L2). split; [apply (nadd e f g (A + B + e + f)); auto; lra|lra].
Qed.
Lemma nb_sub e f g A B C (x y : F) a b : nb e A x a -> nb f B y b -> A + B <= C -> 1e-100 <= A + B + e + f <= 1e6 ->
  e + f + (A + B + e + f) * 1.12e-16 <= g -> nb g C (o_sub x y) (a - b).
Proof.
  intros (N1 & L1) (N2 & L2) LC W G. pose proof (abs_sub_le a b A B L1 L2). split; [apply (nsub e f g (A + B + e + f)); auto; lra|lra].
Qed.
Lemma nb_exact (x : F) X A : flr x X -> Rabs X <= A -> nb 0 A x X.
Proof. intros H L. split; [now apply fl_near0|exact L]. Qed.
Lemma nb_two : nb 0 2 (o_two : F) 2.
Proof. split; [apply near_two|rewrite Rabs_pos_eq; lra]. Qed.
Lemma nb_mone : nb 0 1 (o_neg o_one : F) (-1).
Proof.
  apply nb_exact; [exact (fl_neg 53 1024 f64_prec f64_emax gsin gcos _ _ (fl_one' 53 1024 f64_prec f64_emax gsin gcos))|]. rewrite Rabs_left; lra.
Qed.
Lemma nb_le e e' A A' (x : F) a : nb e A x a -> e <= e' -> A <= A' -> nb e' A' x a.
Proof. intros (N & L) H1 H2. split; [eapply near_le; eauto|lra]. Qed.
Lemma nb_eq e A (x : F) a b : nb e A x a -> a = b -> nb e A x b.
Proof. now intros H ->. Qed.

Lemma near_of_nb e A (x : F) a b : nb e A x a -> a = b -> near e x b.
Proof. intros (H & _) <-. exact H. Qed.

Section Block.
Variables (x y a11 a21 a22 : F) (w1 w2 a b c : R).
Hypothesis NX : nb 8e-15 1 x w1. Hypothesis NY : nb 8e-15 1 y w2.
Hypothesis NA : nb 0 1.1 a11 a. Hypothesis NB : nb 0 1.1 a21 b. Hypothesis NC : nb 0 1.1 a22 c.
Lemma half_f (s t : F) p q : nb 0 1.1 s p -> nb 0 1.1 t q -> nb 5e-14 4.4 (o_mul o_two (o_add (o_mul s x) (o_mul t y))) (2 * (p * w1 + q * w2)).
Proof.
  intros N1 N2. apply (nb_mul 0 2.2e-14 5e-14 2 2.2 4.4); try lra; [apply nb_two|].
  apply (nb_add 9.5e-15 9.5e-15 2.2e-14 1.1 1.1 2.2); try lra; [apply (nb_mul 0 8e-15 9.5e-15 1.1 1 1.1)|apply (nb_mul 0 8e-15 9.5e-15 1.1 1 1.1)]; try lra; assumption.
Qed.
Lemma once_f (z p s : F) zr pr sr A e : nb 8e-15 1 z zr -> nb 5e-14 4.4 p pr -> nb e A s sr -> 0 <= e <= 2e-13 -> 0 <= A <= 5.5 ->
  nb (e + 1.2e-13) (A + 4.4) (o_add (o_mul (o_mul (o_neg o_one) z) p) s) (-1 * zr * pr + sr) /\
  nb (e + 1.2e-13) (A + 4.4) (o_add (o_mul (o_mul (o_neg o_one) p) z) s) (-1 * pr * zr + sr).
Proof.
  intros NZ NP NS E LA. split.
  - apply (nb_add 1e-13 e (e + 1.2e-13) 4.4 A); try lra; [|exact NS]. apply (nb_mul 9e-15 5e-14 1e-13 1 4.4); try lra; [|exact NP]. apply (nb_mul 0 8e-15 9e-15 1 1); try lra; [apply nb_mone|exact NZ].
  - apply (nb_add 1e-13 e (e + 1.2e-13) 4.4 A); try lra; [|exact NS]. apply (nb_mul 6e-14 8e-15 1e-13 4.4 1); try lra; [|exact NZ]. apply (nb_mul 0 5e-14 6e-14 1 4.4); try lra; [apply nb_mone|exact NP].
Qed.
Lemma twice_f (z z' p p' s : F) zr zr' pr pr' sr : nb 8e-15 1 z zr -> nb 8e-15 1 z' zr' -> nb 5e-14 4.4 p pr -> nb 5e-14 4.4 p' pr' -> nb 0 1.1 s sr ->
  nb 2.4e-13 9.9 (o_add (o_mul (o_mul (o_neg o_one) p) z) (o_add (o_mul (o_mul (o_neg o_one) z') p') s)) (-1 * pr * zr + (-1 * zr' * pr' + sr)).
Proof.
  intros NZ NZ' NP NP' NS. destruct (once_f z' p' s zr' pr' sr 1.1 0 NZ' NP' NS) as (K1 & _); [lra|lra|].
  destruct (once_f z p _ zr pr _ (1.1 + 4.4) (0 + 1.2e-13) NZ NP K1) as (_ & K2); [lra|lra|]. apply (nb_le _ _ _ _ _ _ K2); lra.
Qed.
Lemma outer_f (d2 z z' s : F) dr zr zr' sr : nb 6e-13 17.6 d2 dr -> nb 8e-15 1 z zr -> nb 8e-15 1 z' zr' -> nb 2.4e-13 9.9 s sr ->
  nb 2e-12 28 (o_add (o_mul (o_mul d2 z) z') s) (dr * zr * zr' + sr).
Proof.
  intros ND NZ NZ' NS. apply (nb_add 1e-12 2.4e-13 2e-12 17.6 9.9); try lra; [|exact NS].
  apply (nb_mul 8e-13 8e-15 1e-12 17.6 1); try lra; [|exact NZ']. apply (nb_mul 6e-13 8e-15 8e-13 17.6 1); try lra; [exact ND|exact NZ].
Qed.
Lemma block_f : exists p q r, tridiag_block [x; y] (a11, a21, a22) = (p, q, r) /\
  near 2e-12 p (a - 4 * w1 * (a * w1 + b * w2) + 4 * (w1 * (a * w1 + b * w2) + w2 * (b * w1 + c * w2)) * w1 * w1) /\
  near 2e-12 q (b - 2 * w1 * (b * w1 + c * w2) - 2 * w2 * (a * w1 + b * w2) + 4 * (w1 * (a * w1 + b * w2) + w2 * (b * w1 + c * w2)) * w1 * w2) /\
  near 2e-12 r (c - 4 * w2 * (b * w1 + c * w2) + 4 * (w1 * (a * w1 + b * w2) + w2 * (b * w1 + c * w2)) * w2 * w2).
Proof.
  unfold tridiag_block. do 3 eexists. split; [reflexivity|].
  pose proof (half_f _ _ _ _ NA NB) as P0. pose proof (half_f _ _ _ _ NB NC) as P1.
  set (p0 := o_mul o_two (o_add (o_mul a11 x) (o_mul a21 y))) in *. set (p1 := o_mul o_two (o_add (o_mul a21 x) (o_mul a22 y))) in *. clearbody p0 p1.
  assert (D2 : nb 6e-13 17.6 (o_mul (o_add (o_mul x p0) (o_mul y p1)) o_two) ((w1 * (2 * (a * w1 + b * w2)) + w2 * (2 * (b * w1 + c * w2))) * 2)).
  { apply (nb_mul 2.5e-13 0 6e-13 8.8 2); try lra; [|apply nb_two]. apply (nb_add 1e-13 1e-13 2.5e-13 4.4 4.4); try lra; apply (nb_mul 8e-15 5e-14 1e-13 1 4.4); try lra; assumption. }
  set (d2 := o_mul (o_add (o_mul x p0) (o_mul y p1)) o_two) in *. clearbody d2.
  split; [|split].
  - eapply near_of_nb; [eapply outer_f; [exact D2|exact NX|exact NX|eapply twice_f; [exact NX|exact NX|exact P0|exact P0|exact NA]]|ring].
  - eapply near_of_nb; [eapply outer_f; [exact D2|exact NX|exact NY|eapply twice_f; [exact NY|exact NX|exact P0|exact P1|exact NB]]|ring].
  - eapply near_of_nb; [eapply outer_f; [exact D2|exact NY|exact NY|eapply twice_f; [exact NY|exact NY|exact P1|exact P1|exact NC]]|ring].
Qed.
End Block.
Lemma last_f (z s : F) w a : nb 8e-15 1 z w -> nb 0 8 s a -> near 2e-12 (tridiag_last [z] s) ((1 - 2 * w * w) * (1 - 2 * w * w) * a).
Proof.
  intros NZ NS. unfold tridiag_last.
  assert (P : nb 1.5e-13 16 (o_mul o_two (o_mul s z)) (2 * (a * w))). { apply (nb_mul 0 7e-14 1.5e-13 2 8); try lra; [apply nb_two|]. apply (nb_mul 0 8e-15 7e-14 8 1); try lra; assumption. }
  set (p := o_mul o_two (o_mul s z)) in *. clearbody p.
  assert (D : nb 6.5e-13 32 (o_mul (o_mul z p) o_two) (w * (2 * (a * w)) * 2)). { apply (nb_mul 3e-13 0 6.5e-13 16 2); try lra; [|apply nb_two]. apply (nb_mul 8e-15 1.5e-13 3e-13 1 16); try lra; assumption. }
  set (d := o_mul (o_mul z p) o_two) in *. clearbody d.
  assert (Q1 : nb 4e-13 24 (o_add (o_mul (o_mul (o_neg o_one) z) p) s) (-1 * w * (2 * (a * w)) + a)).
  { apply (nb_add 3.4e-13 0 4e-13 16 8); try lra; [|exact NS]. apply (nb_mul 9e-15 1.5e-13 3.4e-13 1 16); try lra; [|exact P]. apply (nb_mul 0 8e-15 9e-15 1 1); try lra; [apply nb_mone|exact NZ]. }
  set (q1 := o_add (o_mul (o_mul (o_neg o_one) z) p) s) in *. clearbody q1.
  assert (Q2 : nb 8e-13 40 (o_add (o_mul (o_mul (o_neg o_one) p) z) q1) (-1 * (2 * (a * w)) * w + (-1 * w * (2 * (a * w)) + a))).
  { apply (nb_add 3e-13 4e-13 8e-13 16 24); try lra; [|exact Q1]. apply (nb_mul 1.6e-13 8e-15 3e-13 16 1); try lra; [|exact NZ]. apply (nb_mul 0 1.5e-13 1.6e-13 1 16); try lra; [apply nb_mone|exact P]. }
  set (q2 := o_add (o_mul (o_mul (o_neg o_one) p) z) q1) in *. clearbody q2.
  assert (Q3 : nb 2e-12 72 (o_add (o_mul (o_mul d z) z) q2) (w * (2 * (a * w)) * 2 * w * w + (-1 * (2 * (a * w)) * w + (-1 * w * (2 * (a * w)) + a)))).
  { apply (nb_add 1.18e-12 8e-13 2e-12 32 40); try lra; [|exact Q2]. apply (nb_mul 9.1e-13 8e-15 1.18e-12 32 1); try lra; [|exact NZ]. apply (nb_mul 6.5e-13 8e-15 9.1e-13 32 1); try lra; [exact D|exact NZ]. }
  eapply near_of_nb; [exact Q3|ring].
Qed.
End F64.
