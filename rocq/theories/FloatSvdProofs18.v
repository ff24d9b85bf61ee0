(** * FloatSvdProofs18.v - relative rounding errors of one step of the QR iteration (C113) *)

From Coq Require Import ZArith Reals List Bool Lra Lia Psatz.
From Flocq Require Import Core BinarySingleNaN.
From Verif Require Import Scalar Linalg Householder RayIntersection SymEigen Spec SpecGeom SpecIsect SpecFloatErr SpecFloatIsect RealBase VecLemmas ExtrinsicsProofs IsectBase IsectProofs SpectralProofs TriProofs FloatBase FloatRound FloatErrProofs FloatApprox FloatDirProofs FloatIsectProofs4 FloatQRProofs QRProofs
  SymEigenProofs SymEigenProofs2 SymEigenProofs4 FloatSvdProofs FloatSvdProofs2 FloatSvdProofs3 FloatSvdProofs4 FloatSvdProofs17.
Import ListNotations.
Local Open Scope R_scope.

Lemma sign_abs sg : sg * sg = 1 -> Rabs sg = 1.
Proof. intros S. assert (Rabs sg * Rabs sg = 1) by (rewrite <- Rabs_mult, S; apply Rabs_R1). pose proof (Rabs_pos sg). nra. Qed.
Lemma abs_div_le x d a : 0 < d -> Rabs x <= a * d -> Rabs (x / d) <= a.
Proof.
  intros P H. unfold Rdiv. rewrite Rabs_mult, (Rabs_pos_eq (/ d)) by (left; now apply Rinv_0_lt_compat).
  apply (Rmult_le_reg_r d); [exact P|]. rewrite Rmult_assoc, Rinv_l by lra. lra.
Qed.
Lemma abs_div_ge x d a : 0 < d -> a * d <= Rabs x -> a <= Rabs (x / d).
Proof.
  intros P H. unfold Rdiv. rewrite Rabs_mult, (Rabs_pos_eq (/ d)) by (left; now apply Rinv_0_lt_compat).
  apply (Rmult_le_reg_r d); [exact P|]. rewrite Rmult_assoc, Rinv_l by lra. lra.
Qed.

Section F64.
Variables gsin gcos : binary_float 53 1024 -> binary_float 53 1024.
Local Notation F := (binary_float 53 1024).
Local Hint Extern 0 (Ops (binary_float 53 1024)) => exact (B_ops 53 1024 f64_prec f64_emax gsin gcos) : typeclass_instances.
Local Notation flr := (fl 53 1024).
Local Notation nmul := (near_mul gsin gcos).
Local Notation nadd := (near_add gsin gcos).
Local Notation nsub := (near_sub gsin gcos).

(** ** The sine of a rotation is accurate relative to itself *)
Lemma quot_rel (x d : F) X D H sg g : flr x X -> flr d D -> flr g sg -> sg * sg = 1 -> 1e-60 <= H -> Rabs (D - H) <= 3e-16 * H -> Rabs X <= H -> 1e-100 * H <= Rabs X ->
  near (6e-16 * Rabs (X / (sg * H))) (o_div x (o_mul g d)) (X / (sg * H)).
Proof.
  intros FX FD FG S H1 DH LX BX. pose proof u64_le as U. pose proof (bpow_gt_0 radix2 (- (53))) as U0. pose proof tiny64_le as T. pose proof big64_ge as BG.
  pose proof (sign_abs sg S) as SA.
  assert (SN : sg <> 0) by (intros Z; rewrite Z in S; lra). pose proof (Rabs_le_inv _ _ DH) as DH'. assert (D0 : 0.99 * H <= D) by lra.
  assert (EA : forall k, 0 < k -> Rabs (X / (sg * k)) = Rabs (X / k)).
  { intros k K. unfold Rdiv. rewrite Rinv_mult, !Rabs_mult, (Rabs_inv sg), SA, Rinv_1, Rmult_1_l. reflexivity. }
  set (A := Rabs (X / (sg * H))). assert (EQ : A = Rabs X / H).
  { unfold A. rewrite EA by lra. unfold Rdiv. rewrite Rabs_mult, (Rabs_pos_eq (/ H)); [reflexivity|left; apply Rinv_0_lt_compat; lra]. }
  assert (A1 : 1e-100 <= A) by (unfold A; rewrite EA by lra; apply abs_div_ge; lra).
  assert (A2 : A <= 1) by (unfold A; rewrite EA by lra; apply abs_div_le; lra).
  assert (QD : Rabs (X / (sg * D)) <= 1.0001 * A).
  { rewrite EA by lra. apply abs_div_le; [lra|]. rewrite EQ. apply (Rmult_le_reg_r H); [lra|]. replace (1.0001 * (Rabs X / H) * D * H) with (1.0001 * Rabs X * D) by (field; lra).
    pose proof (Rabs_pos X). assert (H <= 1.0001 * D) by lra. assert (Rabs X * H <= Rabs X * (1.0001 * D)) by (apply Rmult_le_compat_l; assumption). lra. }
  pose proof (fl_sign_mul 53 1024 f64_prec f64_emax gsin gcos g d sg D FG FD S) as FP.
  destruct (div_err 53 1024 f64_prec f64_emax gsin gcos x (o_mul g d) X (sg * D) (1.0001 * A) FX FP) as (r & R1 & R2 & _); [nra|lra|exact QD|nra|].
  apply (fl_near _ _ _ _ R1).
  replace (r - X / (sg * H)) with ((r - X / (sg * D)) + (X / (sg * H) * ((H - D) / D))) by (field; repeat split; lra || exact SN).
  eapply Rle_trans; [apply Rabs_triang|]. rewrite Rabs_mult. fold A.
  assert (HD : Rabs ((H - D) / D) <= 3.1e-16) by (apply abs_div_le; [lra|rewrite Rabs_minus_sym; lra]).
  assert (A * Rabs ((H - D) / D) <= A * 3.1e-16) by (apply Rmult_le_compat_l; lra).
  assert (bpow radix2 (- (53)) * (1.0001 * A) <= 1.12e-16 * (1.0001 * A)) by (apply Rmult_le_compat_r; lra). lra.
Qed.
Lemma cancel_y_rel (x y : F) X Y : flr x X -> flr y Y -> Y <> 0 -> let H := sqrt (X * X + Y * Y) in 1e-60 <= H <= 100 -> 1e-100 * H <= Rabs Y ->
  exists c s n C S N, cancel_y (mkV2 x y) = Some (c, s, n) /\ C * C + S * S = 1 /\ C * X - S * Y = N /\ S * X + C * Y = 0 /\
    near 6e-16 c C /\ near (6e-16 * Rabs S) s S /\ near (3e-16 * H) n N /\ Rabs C <= 1 /\ Rabs S <= 1 /\ Rabs N = H.
Proof.
  intros FX FY NY H HR BY. unfold cancel_y. cbn [px py].
  assert (E : o_eqb y o_zero = false).
  { apply not_true_iff_false. intros E. apply (fl_eqb 53 1024 f64_prec f64_emax gsin gcos _ _ _ _ FY (fl_zero' 53 1024 f64_prec f64_emax gsin gcos)) in E. contradiction. }
  rewrite E. cbn [negb]. destruct (to_exp_fl 53 1024 f64_prec f64_emax gsin gcos x X FX) as (m & g & sg & -> & FM & FG & S1 & S2).
  assert (HA : sqrt (Rabs X * Rabs X + Y * Y) = H) by (unfold H; f_equal; rewrite <- Rabs_mult, Rabs_pos_eq by nra; ring).
  destruct (hypot_f gsin gcos m y (Rabs X) Y FM FY) as (D & FD & _ & HD); [rewrite HA; lra|]. rewrite HA in HD. specialize (HD ltac:(lra)).
  destruct (abs_le_hyp X Y) as (LX & LY). fold H in LX, LY.
  destruct (quot1_f gsin gcos m _ (Rabs X) D H FM FD ltac:(lra) HD) as (NC & BC); [rewrite Rabs_Rabsolu; exact LX|].
  pose proof (fl_neg 53 1024 f64_prec f64_emax gsin gcos _ _ FY) as FNY.
  destruct (quot_f gsin gcos (o_neg y) _ (- Y) D H sg g FNY FD FG S1 ltac:(lra) HD) as (_ & BS); [now rewrite Rabs_Ropp|].
  pose proof (quot_rel (o_neg y) _ (- Y) D H sg g FNY FD FG S1 ltac:(lra) HD ltac:(now rewrite Rabs_Ropp) ltac:(now rewrite Rabs_Ropp)) as NS.
  pose proof (sign_abs sg S1) as SA.
  assert (SN : sg <> 0) by (intros Z; rewrite Z in S1; lra).
  assert (HH : H * H = X * X + Y * Y) by (apply sqrt_sqrt; nra).
  assert (IS : / sg = sg) by (apply (Rmult_eq_reg_l sg); [rewrite Rinv_r by exact SN; lra|exact SN]).
  assert (ES : - Y / (sg * H) = - Y * sg / H) by (unfold Rdiv; rewrite Rinv_mult, IS; ring).
  exists (o_div m (o_sqrt (o_add (o_mul m m) (o_mul y y)))), (o_div (o_neg y) (o_mul g (o_sqrt (o_add (o_mul m m) (o_mul y y))))), (o_mul g (o_sqrt (o_add (o_mul m m) (o_mul y y)))).
  exists (Rabs X / H), (- Y / (sg * H)), (sg * H). split; [reflexivity|].
  assert (XA : Rabs X = sg * X) by (now rewrite S2). split; [|split; [|split; [|split; [exact NC|split; [exact NS|split; [|split; [exact BC|split; [exact BS|]]]]]]]].
  - rewrite ES, XA. replace (sg * X / H * (sg * X / H) + - Y * sg / H * (- Y * sg / H)) with (sg * sg * (X * X + Y * Y) / (H * H)) by (field; lra). rewrite S1, <- HH. field. lra.
  - rewrite ES, XA. replace (sg * X / H * X - - Y * sg / H * Y) with (sg * (X * X + Y * Y) / H) by (field; lra). rewrite <- HH. field. lra.
  - rewrite ES, XA. field. lra.
  - apply (fl_near _ _ (sg * D) _ (fl_sign_mul 53 1024 f64_prec f64_emax gsin gcos _ _ _ _ FG FD S1)). replace (sg * D - sg * H) with (sg * (D - H)) by ring. rewrite Rabs_mult, SA. lra.
  - rewrite Rabs_mult, SA, Rabs_pos_eq by lra. ring.
Qed.

(** ** The new off-diagonal entry, relative to the sine *)
Lemma giv_o_rel (c s mii mjj mij : F) C S : near 6e-16 c C -> near (6e-16 * Rabs S) s S -> C * C + S * S = 1 -> Rabs C <= 1 -> Rabs S <= 1 -> 1e-50 <= Rabs S ->
  near 0 mii (B2R mii) -> near 0 mjj (B2R mjj) -> near 0 mij (B2R mij) -> Rabs (B2R mii) <= 5 -> Rabs (B2R mjj) <= 4 -> Rabs (B2R mij) <= 20 * Rabs S ->
  near (1e-13 * Rabs S) (giv_o c s mii mjj mij) (C * S * (B2R mii - B2R mjj) + B2R mij * (C * C - S * S)).
Proof.
  intros NC NS CS LC LS BS Ni Nj Nij Li Lj Lij. destruct (half_cs C S CS) as (HCS & HCC & HSS). set (t := Rabs S) in *.
  assert (NS' : near 6e-16 s S) by (apply (near_weak 53 1024 (6e-16 * t)); [exact NS|lra]).
  assert (CC : near 1.4e-15 (o_mul c c) (C * C)) by (apply (nmul 6e-16 6e-16 _ 1 1 1.01 _ _ _ _ NC NC LC LC); lra).
  assert (SS : near 1.4e-15 (o_mul s s) (S * S)) by (apply (nmul 6e-16 6e-16 _ 1 1 1.01 _ _ _ _ NS' NS' LS LS); lra).
  assert (CSn : near (1.4e-15 * t) (o_mul c s) (C * S)).
  { apply (nmul 6e-16 (6e-16 * t) _ 1 t (1.01 * t) _ _ _ _ NC NS LC (Rle_refl _)); [lra|lra|lra]. }
  assert (LCS : Rabs (C * S) <= t) by (rewrite Rabs_mult; fold t; pose proof (Rabs_pos C); nra).
  assert (LD : Rabs (B2R mii - B2R mjj) <= 9) by (apply Rabs_le_inv in Li; apply Rabs_le_inv in Lj; apply Rabs_le; lra).
  assert (D : near 1.1e-15 (o_sub mii mjj) (B2R mii - B2R mjj)) by (apply (nsub 0 0 _ 9.01 _ _ _ _ Ni Nj); lra).
  assert (P1 : near (1.5e-14 * t) (o_mul (o_mul c s) (o_sub mii mjj)) (C * S * (B2R mii - B2R mjj))).
  { apply (nmul (1.4e-15 * t) 1.1e-15 _ t 9 (9.01 * t) _ _ _ _ CSn D LCS LD); lra. }
  assert (LDD : Rabs (C * C - S * S) <= 1) by (apply Rabs_le; lra).
  assert (DD : near 3e-15 (o_sub (o_mul c c) (o_mul s s)) (C * C - S * S)) by (apply (nsub 1.4e-15 1.4e-15 _ 1.01 _ _ _ _ CC SS); lra).
  assert (P2 : near (6.5e-14 * t) (o_mul mij (o_sub (o_mul c c) (o_mul s s))) (B2R mij * (C * C - S * S))) by (apply (nmul 0 3e-15 _ (20 * t) 1 (20.1 * t) _ _ _ _ Nij DD Lij LDD); lra).
  apply (nadd (1.5e-14 * t) (6.5e-14 * t) _ (29.1 * t) _ _ _ _ P1 P2); [|lra|lra].
  assert (E1 : Rabs (C * S * (B2R mii - B2R mjj)) <= t * 9) by (rewrite Rabs_mult; apply Rmult_le_compat; try apply Rabs_pos; assumption).
  assert (E2 : Rabs (B2R mij * (C * C - S * S)) <= 20 * t * 1) by (rewrite Rabs_mult; apply Rmult_le_compat; try apply Rabs_pos; assumption).
  pose proof (Rabs_triang (C * S * (B2R mii - B2R mjj)) (B2R mij * (C * C - S * S))). lra.
Qed.

(** ** The shift is near the exact one *)
Lemma wilkinson_acc (a b t : F) : is_finite a = true -> is_finite b = true -> is_finite t = true -> Rabs (B2R a) <= 3.2 -> Rabs (B2R b) <= 3.2 ->
  4e-13 <= Rabs (B2R t) <= 1.6 -> exists w al1 al2, flr (wilkinson_shift a b t) w /\ Rabs w <= 4.9 /\ al1 * al2 = B2R t * B2R t /\ Rabs al2 <= Rabs (B2R t) /\
    Rabs (B2R b - w - al2) <= 2e-15 /\ Rabs (B2R a - w - al1) <= 7e-15.
Proof.
  intros Fa Fb Ft La Lb (Lt & Ut). pose proof (fin_fl _ Ft) as Gt. pose proof (fin_fl _ Fb) as Gb. apply near_exact in Fa. apply near_exact in Fb. apply near_exact in Ft.
  set (A := B2R a) in *. set (B := B2R b) in *. set (T := B2R t) in *.
  pose proof u64_le as U. pose proof (bpow_gt_0 radix2 (- (53))) as U0. pose proof tiny64_le as TI. pose proof big64_ge as BG. set (u := bpow radix2 (- (53))) in *.
  pose proof (prod_bounds T T 4e-13 4e-13 1.6 1.6 ltac:(lra) ltac:(lra) ltac:(lra) ltac:(lra)) as TT. rewrite Rabs_pos_eq in TT by nra.
  (* the square *)
  destruct (mul_err 53 1024 f64_prec f64_emax gsin gcos t t T T (T * T) Gt Gt) as (sq & Fsq & Dsq & _).
  { lra. } { rewrite Rabs_pos_eq; lra. } { fold u. nra. }
  fold u in Dsq. assert (Dsq' : Rabs (sq - T * T) <= 1.12e-16 * (T * T)) by (eapply Rle_trans; [exact Dsq|apply Rmult_le_compat_r; lra]). clear Dsq.
  assert (Psq : 0 < sq <= 1.01 * (T * T)) by (apply Rabs_le_inv in Dsq'; lra).
  (* half the difference *)
  assert (LAB : Rabs (A - B) <= 6.4) by (replace (A - B) with (A + - B) by ring; eapply Rle_trans; [apply Rabs_triang|]; rewrite Rabs_Ropp; lra).
  assert (N1 : near 7.3e-16 (o_sub a b) (A - B)) by (apply (nsub 0 0 _ 6.41 _ _ _ _ Fa Fb); lra).
  assert (N2 : near 1e-15 (o_mul (o_sub a b) (o_lit 1 (-1))) ((A - B) * / 2)).
  { apply (nmul 7.3e-16 0 _ 6.4 (/ 2) 3.3 _ _ _ _ N1 (near_half gsin gcos)); try lra. rewrite Rabs_pos_eq; lra. }
  set (dd := o_mul (o_sub a b) (o_lit 1 (-1))) in *. set (D := B2R dd).
  assert (DAB : Rabs (D - (A - B) * / 2) <= 1e-15) by apply N2.
  assert (FD : flr dd D) by (split; [apply N2|reflexivity]). assert (LD : Rabs D <= 3.21).
  { assert (LH : Rabs ((A - B) * / 2) <= 3.2) by (rewrite Rabs_mult, (Rabs_pos_eq (/ 2)) by lra; lra).
    pose proof (abs_le_near _ _ _ _ DAB LH). lra. }
  destruct (fl_signum0 gsin gcos dd D FD) as (sg & FG & S1 & S2).
  assert (HH : sqrt (D * D + T * T) <= 3.7) by (apply (hyp_le D T 3.21 1.6); lra).
  destruct (abs_le_hyp D T) as (HLD & HL).
  destruct (hypot_f gsin gcos dd t D T FD Gt) as (h & Fh & _ & Dh); [lra|]. specialize (Dh ltac:(lra)). set (H := sqrt (D * D + T * T)) in *.
  assert (H2 : H * H = D * D + T * T) by (apply sqrt_sqrt; nra). pose proof (Rabs_le_inv _ _ Dh) as Dh'.
  pose proof (fl_sign_mul 53 1024 f64_prec f64_emax gsin gcos _ _ _ _ FG Fh S1) as FS.
  pose proof (sign_abs sg S1) as SA.
  assert (DA : D + sg * h = sg * (Rabs D + h)) by (rewrite <- S2; replace (sg * (sg * D + h)) with (sg * sg * D + sg * h) by ring; rewrite S1; ring).
  pose proof (Rabs_pos D) as PD.
  assert (DA' : Rabs (D + sg * h) = Rabs D + h) by (rewrite DA, Rabs_mult, SA, Rmult_1_l; apply Rabs_pos_eq; lra).
  destruct (add_err 53 1024 f64_prec f64_emax gsin gcos _ _ _ _ (Rabs D + h) FD FS) as (den & Fden & Dden & _).
  { lra. } { rewrite DA'. lra. } { fold u. nra. }
  fold u in Dden. set (E := Rabs D + H). assert (PE : Rabs T <= E) by (unfold E; lra).
  assert (Dd : Rabs (den - sg * E) <= 4.3e-16 * E).
  { replace (den - sg * E) with ((den - (D + sg * h)) + sg * (h - H)) by (rewrite DA; unfold E; ring). eapply Rle_trans; [apply Rabs_triang|]. rewrite Rabs_mult, SA, Rmult_1_l.
    assert (u * (Rabs D + h) <= 1.12e-16 * (1.0001 * E)) by (apply Rmult_le_compat; unfold E; lra). unfold E in *. lra. }
  set (den' := sg * den). assert (Dd' : Rabs (den' - E) <= 4.3e-16 * E).
  { unfold den'. replace (sg * den - E) with (sg * (den - sg * E)) by (replace (sg * (den - sg * E)) with (sg * den - sg * sg * E) by ring; rewrite S1; ring). rewrite Rabs_mult, SA. lra. }
  assert (Eden : den = sg * den') by (unfold den'; rewrite <- Rmult_assoc, S1; ring).
  pose proof (Rabs_le_inv _ _ Dd') as Dd''. assert (Pden : 0 < den') by lra.
  assert (SN : sg <> 0) by (intros Z; rewrite Z in S1; lra).
  assert (Nden : den <> 0) by (rewrite Eden; apply Rmult_integral_contrapositive; split; lra || exact SN).
  (* the exact quantities *)
  assert (ET : (H - Rabs D) * E = T * T) by (unfold E; pose proof (abs_sq D); lra).
  set (k := H - Rabs D) in *. assert (K0 : 0 <= k) by (unfold k; lra).
  assert (KT : k <= Rabs T). { assert (k * E <= Rabs T * E); [|apply (Rmult_le_reg_r E); lra]. rewrite ET, <- abs_sq. apply Rmult_le_compat_l; lra. }
  assert (IS : / sg = sg) by (apply (Rmult_eq_reg_l sg); [rewrite Rinv_r by exact SN; lra|exact SN]).
  assert (Kp : 0 < k). { apply (Rmult_lt_reg_r E); [lra|]. rewrite ET. lra. }
  assert (DQ : Rabs (sq / den' - k) <= 5.5e-16 * k).
  { replace (sq / den' - k) with ((sq - k * den') / den') by (field; lra). apply abs_div_le; [exact Pden|].
    replace (sq - k * den') with ((sq - T * T) + k * (E - den')) by (rewrite <- ET; ring). eapply Rle_trans; [apply Rabs_triang|]. rewrite Rabs_mult, (Rabs_pos_eq k) by exact K0.
    rewrite (Rabs_minus_sym E). assert (k * Rabs (den' - E) <= k * (4.3e-16 * E)) by (apply Rmult_le_compat_l; assumption).
    assert (k * (0.999 * E) <= k * den') by (apply Rmult_le_compat_l; lra). lra. }
  assert (EQ : sq / den = sg * (sq / den')) by (rewrite Eden; unfold Rdiv; rewrite Rinv_mult, IS; ring).
  assert (QL : Rabs (sq / den) <= 1.61). { rewrite EQ, Rabs_mult, SA, Rmult_1_l. pose proof (abs_le_near _ _ _ k DQ ltac:(rewrite Rabs_pos_eq; lra)). lra. }
  destruct (div_err 53 1024 f64_prec f64_emax gsin gcos _ _ _ _ 1.61 Fsq Fden Nden) as (qq & Fqq & Dqq & Lqq); [lra|exact QL|fold u; lra|].
  fold u in Lqq, Dqq.
  assert (DQ2 : Rabs (qq - sg * k) <= 1.1e-15).
  { replace (qq - sg * k) with ((qq - sq / den) + sg * (sq / den' - k)) by (rewrite EQ; ring). eapply Rle_trans; [apply Rabs_triang|]. rewrite Rabs_mult, SA. lra. }
  destruct (sub_err 53 1024 f64_prec f64_emax gsin gcos _ _ _ _ 4.82 Gb Fqq) as (w & Fw & Dw & Lw).
  { lra. } { replace (B - qq) with (B + - qq) by ring. eapply Rle_trans; [apply Rabs_triang|]. rewrite Rabs_Ropp. lra. } { fold u. lra. }
  fold u in Lw, Dw.
  exists w, (sg * E), (sg * k). split.
  { unfold wilkinson_shift. replace (o_eqb (o_mul t t) (o_zero : F)) with false. { exact Fw. }
    symmetry. apply not_true_is_false. intros Z. apply (fl_eqb 53 1024 f64_prec f64_emax gsin gcos _ _ _ _ Fsq (fl_zero' 53 1024 f64_prec f64_emax gsin gcos)) in Z. lra. }
  split; [lra|]. split. { replace (sg * E * (sg * k)) with (sg * sg * (k * E)) by ring. rewrite S1, ET. ring. }
  split. { rewrite Rabs_mult, SA, Rmult_1_l, Rabs_pos_eq; lra. }
  assert (X1 : Rabs (B - w - sg * k) <= 2e-15).
  { replace (B - w - sg * k) with (- (w - (B - qq)) + (qq - sg * k)) by ring. eapply Rle_trans; [apply Rabs_triang|]. rewrite Rabs_Ropp. lra. }
  split; [exact X1|].
  assert (D2 : sg * E - sg * k = 2 * D). { unfold E, k. rewrite <- S2. replace (sg * (sg * D + H) - sg * (H - sg * D)) with (sg * sg * (2 * D)) by ring. rewrite S1. ring. }
  replace (A - w - sg * E) with ((B - w - sg * k) + -2 * (D - (A - B) * / 2)) by lra.
  eapply Rle_trans; [apply Rabs_triang|]. rewrite Rabs_mult, (Rabs_left (-2)) by lra. lra.
Qed.
End F64.
