(** * FloatSvdProofs7.v - Householder axes of columns of any size (C110) *)

From Coq Require Import ZArith Reals List Bool Lra Lia Psatz.
From Flocq Require Import Core BinarySingleNaN.
From Verif Require Import Scalar Linalg Householder RayIntersection SymEigen Spec SpecGeom SpecIsect SpecFloatErr SpecFloatIsect RealBase VecLemmas ExtrinsicsProofs IsectBase IsectProofs SpectralProofs TriProofs FloatBase FloatRound FloatErrProofs FloatApprox FloatDirProofs FloatIsectProofs4 FloatQRProofs QRProofs
  SymEigenProofs SymEigenProofs2 SymEigenProofs4 FloatSvdProofs FloatSvdProofs2 FloatSvdProofs3 FloatSvdProofs4 FloatSvdProofs5.
Import ListNotations.
Local Open Scope R_scope.

Lemma sqn x : 0 <= x * x. Proof. apply Rle_0_sqr. Qed.

Section F64.
Variables gsin gcos : binary_float 53 1024 -> binary_float 53 1024.
Local Notation F := (binary_float 53 1024).
Local Hint Extern 0 (Ops (binary_float 53 1024)) => exact (B_ops 53 1024 f64_prec f64_emax gsin gcos) : typeclass_instances.
Local Notation flr := (fl 53 1024).
Local Notation rnd := (rnd 53 1024).
Local Notation eta := (bpow radix2 (-1074)).
Local Notation u := (bpow radix2 (- (53))).

Lemma sq_zero_sign (x : F) b : (o_mul x x : F) = B754_zero b -> b = false.
Proof.
  cbn [o_mul B_ops]. intros E. destruct x as [c|c| |c m e BB]; try (cbn in E; discriminate).
  - cbn in E. injection E as <-. apply xorb_nilpotent.
  - pose proof (Bmult_correct 53 1024 f64_prec f64_emax mode_NE (B754_finite c m e BB) (B754_finite c m e BB)) as K. rewrite E in K.
    destruct (Rlt_bool _ _); [|discriminate]. destruct K as (_ & _ & K). specialize (K eq_refl). cbn [Bsign] in K. rewrite K. apply xorb_nilpotent.
Qed.
Lemma zero_add_sq (x : F) : o_add o_zero (o_mul x x) = (o_mul x x : F).
Proof.
  pose proof (sq_zero_sign x) as H. destruct (o_mul x x) as [b|b| |b m e BB] eqn:E; try reflexivity. rewrite (H b eq_refl). reflexivity.
Qed.
Lemma add_zero_sq (x : F) : o_add (o_mul x x) (o_mul o_zero o_zero) = (o_mul x x : F).
Proof.
  pose proof (sq_zero_sign x) as H. destruct (o_mul x x) as [b|b| |b m e BB] eqn:E; try reflexivity. rewrite (H b eq_refl). reflexivity.
Qed.
Lemma rnd_abs z : 0 <= z <= 1e6 -> - (u * z + eta / 2) <= rnd z - z <= u * z + eta / 2 /\ Rabs (rnd z) < bpow radix2 1024.
Proof.
  intros L. pose proof u64_le as U. pose proof tiny64_le as TI. pose proof big64_ge as BG. pose proof (bpow_gt_0 radix2 (- (53))) as U0. pose proof (bpow_gt_0 radix2 (2 - 1024)) as T0. 
  destruct (rnd_near 53 1024 f64_prec z (z + bpow radix2 (2 - 1024))) as (A & B); [lra|rewrite Rabs_pos_eq; lra|]. apply Rabs_le_inv in A.
  assert (E : u * bpow radix2 (2 - 1024) = eta / 2). { rewrite <- bpow_plus. replace (- (53) + (2 - 1024))%Z with (-1074 + -1)%Z by lia. rewrite bpow_plus. change (bpow radix2 (-1)) with (/ 2). lra. }
  split; [rewrite <- E; lra|]. eapply Rle_lt_trans; [exact B|]. nra.
Qed.
Lemma rnd_0 : rnd 0 = 0.
Proof. apply round_0, valid_rnd_N. Qed.
Lemma eta_small : 0 < eta <= 1e-300.
Proof.
  split; [apply bpow_gt_0|]. apply Rle_trans with (bpow radix2 (-1000)); [apply bpow_le; lia|]. simpl. lra.
Qed.
Lemma pos_ge_eta (x : F) r : flr x r -> 0 < r -> eta <= r.
Proof.
  intros (A & B) P. rewrite <- B. rewrite <- (Rabs_pos_eq (B2R x)) by lra. apply (abs_B2R_ge_emin 53 1024 x).
  destruct x as [b|b| |b m e BB]; try discriminate; [cbn in B; lra|reflexivity].
Qed.
Lemma fl_sqrt0 (x : F) : flr x 0 -> flr (o_sqrt x) 0.
Proof.
  intros (A & B). destruct x as [b|b| |b m e BB]; try discriminate; [split; reflexivity|].
  exfalso. revert B. cbn [B2R]. destruct b; [apply Rlt_not_eq, F2R_lt_0; reflexivity|apply Rgt_not_eq, F2R_gt_0; reflexivity].
Qed.
Lemma fl_fmt64 (x : F) r : flr x r -> fmt 53 1024 r.
Proof. apply fl_fmt. Qed.

Lemma tiny_core (x y m g : F) X Y sg : flr x X -> flr y Y -> Rabs X <= 1e-110 -> Rabs Y <= 1e-110 -> flr m (Rabs X) -> flr g sg -> sg * sg = 1 -> sg * X = Rabs X ->
  let sq := o_add (o_mul x x) (o_mul y y) in let norm := o_sqrt sq in let sn := o_mul g norm in let factor := o_mul (o_add sq (o_mul m norm)) o_two in
  let a := o_add x sn in let c := o_div a (o_sqrt factor) in let d := o_div y (o_sqrt factor) in let n1 := o_sqrt (o_add (o_mul c c) (o_mul d d)) in
  (exists v, flr sn v /\ Rabs v <= 1e-100) /\
  ((o_eqb factor (o_zero : F) = true /\ flr a X) \/
   (o_eqb factor (o_zero : F) = false /\ exists W1 W2, W1 * W1 + W2 * W2 = 1 /\ near 6e-16 (o_div c n1) W1 /\ near 6e-16 (o_div d n1) W2 /\ (Y = 0 -> W2 = 0 /\ flr d 0))).
Proof.
  intros FX FY LX LY FM FG S1 S2. cbv zeta. pose proof eta_small as (ET0 & ET1). pose proof u64_le as U. pose proof (bpow_gt_0 radix2 (- (53))) as U0. pose proof tiny64_le as TI. pose proof big64_ge as BG.
  assert (SA : Rabs sg = 1). { assert (Rabs sg * Rabs sg = 1) by (rewrite <- Rabs_mult, S1; apply Rabs_R1). pose proof (Rabs_pos sg). nra. }
  assert (XX : 0 <= X * X <= 1e-220). { split; [apply sqn|]. rewrite <- (Rabs_pos_eq (X * X)) by apply sqn. rewrite Rabs_mult. pose proof (Rabs_pos X). assert (Rabs X * Rabs X <= 1e-110 * 1e-110) by (apply Rmult_le_compat; lra). lra. }
  assert (YY : 0 <= Y * Y <= 1e-220). { split; [apply sqn|]. rewrite <- (Rabs_pos_eq (Y * Y)) by apply sqn. rewrite Rabs_mult. pose proof (Rabs_pos Y). assert (Rabs Y * Rabs Y <= 1e-110 * 1e-110) by (apply Rmult_le_compat; lra). lra. }
  destruct (rnd_abs (X * X)) as (R1 & B1); [lra|]. destruct (rnd_abs (Y * Y)) as (R2 & B2); [lra|].
 
  pose proof (fl_mul 53 1024 f64_prec f64_emax gsin gcos _ _ _ _ FX FX B1) as F1. pose proof (fl_mul 53 1024 f64_prec f64_emax gsin gcos _ _ _ _ FY FY B2) as F2.
  assert (P1 : 0 <= rnd (X * X)) by (apply rnd_ge_fmt; [exact f64_prec|apply fmt_0|lra]). assert (P2 : 0 <= rnd (Y * Y)) by (apply rnd_ge_fmt; [exact f64_prec|apply fmt_0|lra]).
  set (p := rnd (X * X)) in *. set (q := rnd (Y * Y)) in *. assert (UX : u * (X * X) <= 1e-10 * (X * X)) by (apply Rmult_le_compat_r; lra). assert (UY : u * (Y * Y) <= 1e-10 * (Y * Y)) by (apply Rmult_le_compat_r; lra).
  destruct (rnd_abs (p + q)) as (R3 & B3); [lra|].
  pose proof (fl_add 53 1024 f64_prec f64_emax gsin gcos _ _ _ _ F1 F2 B3) as F3.
  assert (P3 : 0 <= rnd (p + q)) by (apply rnd_ge_fmt; [exact f64_prec|apply fmt_0|lra]). set (t := rnd (p + q)) in *.
  assert (UPQ : u * (p + q) <= 1e-10 * (p + q)) by (apply Rmult_le_compat_r; lra). assert (T1 : t <= 1e-219) by lra.
  pose proof (fl_zero' 53 1024 f64_prec f64_emax gsin gcos) as FZ.
  set (sq := o_add (o_mul x x) (o_mul y y)) in *. clearbody sq.
  destruct (Req_dec t 0) as [T0|T0].
  - rewrite T0 in F3. pose proof (fl_sqrt0 _ F3) as FN. pose proof (fl_sign_mul 53 1024 f64_prec f64_emax gsin gcos _ _ _ _ FG FN S1) as FS. rewrite Rmult_0_r in FS.
    split; [exists 0; split; [exact FS|rewrite Rabs_R0; lra]|]. left. split.
    + assert (K1 : flr (o_mul m (o_sqrt sq)) 0).
      { pose proof (fl_mul 53 1024 f64_prec f64_emax gsin gcos _ _ _ _ FM FN) as K. rewrite Rmult_0_r, rnd_0, Rabs_R0 in K. apply K. apply bpow_gt_0. }
      assert (K2 : flr (o_add sq (o_mul m (o_sqrt sq))) 0).
      { pose proof (fl_add 53 1024 f64_prec f64_emax gsin gcos _ _ _ _ F3 K1) as K. rewrite Rplus_0_r, rnd_0, Rabs_R0 in K. apply K. apply bpow_gt_0. }
      assert (K3 : flr (o_mul (o_add sq (o_mul m (o_sqrt sq))) o_two) 0).
      { destruct (near_fl _ _ _ (near_two gsin gcos)) as (w & FW & _). pose proof (fl_mul 53 1024 f64_prec f64_emax gsin gcos _ _ _ _ K2 FW) as K. rewrite Rmult_0_l, rnd_0, Rabs_R0 in K. apply K. apply bpow_gt_0. }
      apply (fl_eqb 53 1024 f64_prec f64_emax gsin gcos _ _ _ _ K3 FZ). reflexivity.
    + pose proof (fl_add 53 1024 f64_prec f64_emax gsin gcos _ _ _ _ FX FS) as K. rewrite Rplus_0_r in K. rewrite (rnd_id 53 1024 _ (fl_fmt64 _ _ FX)) in K.
      apply K. unfold FloatRound.big. lra.
  - assert (TP : 0 < t) by lra. pose proof (pos_ge_eta _ _ F3 TP) as TE.
    assert (X2 : X * X <= 2.05 * t) by lra. assert (Y2 : Y * Y <= 2.05 * t) by lra. clear R1 R2 R3 UX UY UPQ B1 B2 B3 F1 F2.
    set (r := sqrt t). assert (RR : r * r = t) by (apply sqrt_sqrt; lra). assert (R0 : 0 < r) by (apply sqrt_lt_R0; exact TP).
    assert (RE : bpow radix2 (-537) <= r). { apply Rsqr_incr_0_var; [|lra]. unfold Rsqr. rewrite RR, <- bpow_plus. exact TE. }
    assert (R1 : r <= 1e-109) by (apply Rsqr_incr_0_var; [unfold Rsqr; lra|lra]).
    assert (TR : 2 * bpow radix2 (2 - 1024) <= r). { apply Rle_trans with (2 := RE). change 2 with (bpow radix2 1) at 1. rewrite <- bpow_plus. apply bpow_le. lia. }
    assert (XR : Rabs X <= 1.44 * r) by (apply Rsqr_incr_0_var; [rewrite <- Rsqr_abs; unfold Rsqr; lra|lra]). assert (YR : Rabs Y <= 1.44 * r) by (apply Rsqr_incr_0_var; [rewrite <- Rsqr_abs; unfold Rsqr; lra|lra]).
    (* the norm *)
    pose proof (fl_sqrt 53 1024 f64_prec f64_emax gsin gcos _ _ F3 TP) as FN. fold r in FN.
    destruct (rnd_near 53 1024 f64_prec r r) as (N1 & _); [lra|rewrite Rabs_pos_eq; lra|]. apply Rabs_le_inv in N1. set (nu := rnd r) in *.
    assert (UR : u * r <= 1e-10 * r) by (apply Rmult_le_compat_r; lra). assert (NU : 0.99 * r <= nu <= 1.01 * r) by lra.
    pose proof (fl_sign_mul 53 1024 f64_prec f64_emax gsin gcos _ _ _ _ FG FN S1) as FS.
    set (norm := o_sqrt sq) in *. clearbody norm.
    split; [exists (sg * nu); split; [exact FS|rewrite Rabs_mult, SA, Rabs_pos_eq; lra]|]. right.
    (* the factor *)
    assert (PM : 0 <= Rabs X * nu <= 1.46 * t). { pose proof (Rabs_pos X). split; [apply Rmult_le_pos; lra|]. rewrite <- RR. assert (Rabs X * nu <= 1.44 * r * (1.01 * r)) by (apply Rmult_le_compat; lra). assert (0 <= r * r) by lra. lra. }
    destruct (rnd_abs (Rabs X * nu)) as (M1 & B1); [lra|].
    pose proof (fl_mul 53 1024 f64_prec f64_emax gsin gcos _ _ _ _ FM FN B1) as F4. assert (P4 : 0 <= rnd (Rabs X * nu)) by (apply rnd_ge_fmt; [exact f64_prec|apply fmt_0|lra]). set (v := rnd (Rabs X * nu)) in *.
    assert (UM : u * (Rabs X * nu) <= 1e-10 * (Rabs X * nu)) by (apply Rmult_le_compat_r; lra). assert (V1 : v <= 2 * t) by lra.
    destruct (rnd_abs (t + v)) as (M2 & B2); [lra|].
    pose proof (fl_add 53 1024 f64_prec f64_emax gsin gcos _ _ _ _ F3 F4 B2) as F5. assert (P5 : t <= rnd (t + v)) by (apply rnd_ge_fmt; [exact f64_prec|exact (fl_fmt64 _ _ F3)|lra]). set (gg := rnd (t + v)) in *.
    assert (UG : u * (t + v) <= 1e-10 * (t + v)) by (apply Rmult_le_compat_r; lra). assert (G1 : gg <= 3.6 * t) by lra.
    destruct (near_fl _ _ _ (near_two gsin gcos)) as (w & FW & DW). assert (w = 2) by (apply Rabs_le_inv in DW; lra). subst w.
    destruct (rnd_abs (gg * 2)) as (M3 & B3); [lra|].
    pose proof (fl_mul 53 1024 f64_prec f64_emax gsin gcos _ _ _ _ F5 FW B3) as F6. assert (P6 : gg <= rnd (gg * 2)) by (apply rnd_ge_fmt; [exact f64_prec|exact (fl_fmt64 _ _ F5)|lra]). set (f := rnd (gg * 2)) in *.
    assert (UF : u * (gg * 2) <= 1e-10 * (gg * 2)) by (apply Rmult_le_compat_r; lra). assert (F8 : f <= 8 * t) by lra.
    set (factor := o_mul (o_add sq (o_mul m norm)) o_two) in *. clearbody factor.
    assert (FN0 : o_eqb factor (o_zero : F) = false). { apply not_true_is_false. intros H. apply (fl_eqb 53 1024 f64_prec f64_emax gsin gcos _ _ _ _ F6 FZ) in H. lra. }
    split; [exact FN0|].
    assert (H1 : r <= sqrt f) by (apply sqrt_le_1; lra). assert (H2 : sqrt f <= 2.83 * r) by (apply Rsqr_incr_0_var; [unfold Rsqr; rewrite sqrt_sqrt; lra|lra]).
    pose proof (fl_sqrt 53 1024 f64_prec f64_emax gsin gcos _ _ F6 ltac:(lra)) as FH.
    destruct (rnd_near 53 1024 f64_prec (sqrt f) (sqrt f)) as (N2 & _); [lra|rewrite Rabs_pos_eq; lra|]. apply Rabs_le_inv in N2. set (h := rnd (sqrt f)) in *.
    assert (UH : u * sqrt f <= 1e-10 * sqrt f) by (apply Rmult_le_compat_r; lra). assert (HB : 0.99 * r <= h <= 2.86 * r) by lra.
    set (sf := o_sqrt factor) in *. clearbody sf.
    (* the new first entry *)
    assert (DA : Rabs (X + sg * nu) = Rabs X + nu).
    { replace (X + sg * nu) with (sg * (Rabs X + nu)) by (rewrite <- S2; replace (sg * (sg * X + nu)) with (sg * sg * X + sg * nu) by ring; rewrite S1; ring).
      rewrite Rabs_mult, SA, Rmult_1_l. apply Rabs_pos_eq. pose proof (Rabs_pos X). lra. }
    pose proof (Rabs_pos X) as PX. pose proof (Rabs_pos Y) as PY.
    destruct (add_err 53 1024 f64_prec f64_emax gsin gcos _ _ _ _ (2.5 * r) FX FS) as (a & FA & DDA & _). { lra. } { rewrite DA. lra. } { lra. }
    assert (A1 : 0.98 * r <= Rabs a <= 2.5 * r).
    { assert (K : u * (2.5 * r) <= 1e-10 * (2.5 * r)) by (apply Rmult_le_compat_r; lra).
      pose proof (Rabs_triang (a - (X + sg * nu)) (X + sg * nu)) as Q1. replace (a - (X + sg * nu) + (X + sg * nu)) with a in Q1 by ring.
      rewrite Rabs_minus_sym in DDA. pose proof (Rabs_triang (X + sg * nu - a) a) as Q2. replace (X + sg * nu - a + a) with (X + sg * nu) in Q2 by ring. rewrite Rabs_minus_sym in Q1. rewrite DA in *. lra. }
    set (af := o_add x (o_mul g norm)) in *. clearbody af. assert (HN : h <> 0) by lra.
    assert (IH : 0 < / h) by (apply Rinv_0_lt_compat; lra). assert (RH : 0.349 <= r * / h <= 1.02).
    { split; apply (Rmult_le_reg_r h); try lra; rewrite Rmult_assoc, Rinv_l by lra; lra. }
    assert (QA : 0.34 <= Rabs (a / h) <= 2.6).
    { unfold Rdiv. rewrite Rabs_mult, (Rabs_pos_eq (/ h)) by lra. split.
      - apply Rle_trans with (0.98 * r * / h); [lra|]. apply Rmult_le_compat_r; lra.
      - apply Rle_trans with (2.5 * r * / h); [apply Rmult_le_compat_r; lra|lra]. }
    assert (QY : Rabs (Y / h) <= 1.5).
    { unfold Rdiv. rewrite Rabs_mult, (Rabs_pos_eq (/ h)) by lra. apply Rle_trans with (1.44 * r * / h); [apply Rmult_le_compat_r; lra|lra]. }
    destruct (div_err 53 1024 f64_prec f64_emax gsin gcos _ _ _ _ 2.6 FA FH HN) as (c & FC & DC & _); [lra|lra|lra|].
    assert (LC : 0.33 <= Rabs c <= 2.7).
    { assert (K : u * 2.6 <= 1e-10) by lra. pose proof (Rabs_triang (c - a / h) (a / h)) as Q1. replace (c - a / h + a / h) with c in Q1 by ring.
      pose proof DC as DC'. rewrite Rabs_minus_sym in DC'. pose proof (Rabs_triang (a / h - c) c) as Q2. replace (a / h - c + c) with (a / h) in Q2 by ring. lra. }
    destruct (div_err 53 1024 f64_prec f64_emax gsin gcos _ _ _ _ 1.5 FY FH HN) as (d & FD & DD & LD); [lra|lra|lra|].
    assert (LD' : Rabs d <= 1.6) by lra.
    set (cf := o_div af sf) in *. set (df := o_div y sf) in *.
    assert (YD : Y = 0 -> d = 0).
    { intros Z. pose proof (fl_div 53 1024 f64_prec f64_emax gsin gcos _ _ _ _ FY FH HN) as K. rewrite Z in K. unfold Rdiv in K. rewrite Rmult_0_l, rnd_0, Rabs_R0 in K. destruct (K (bpow_gt_0 radix2 1024)) as (_ & K'). destruct FD as (_ & FD). unfold df in FD. congruence. }
    clearbody cf df. assert (HU : sqrt (c * c + d * d) <= 3.5) by (apply (hyp_le c d 2.7 1.6); lra).
    destruct (abs_le_hyp c d) as (HL & HL2). destruct (hypot_f gsin gcos cf df c d FC FD) as (n1 & FN1 & _ & DN); [lra|]. set (H := sqrt (c * c + d * d)) in *. specialize (DN ltac:(lra)).
    destruct (quot1_f gsin gcos cf _ c n1 H FC FN1 ltac:(lra) DN HL) as (NW1 & _). destruct (quot1_f gsin gcos df _ d n1 H FD FN1 ltac:(lra) DN HL2) as (NW2 & _).
    exists (c / H), (d / H). split.
    { assert (HH : H * H = c * c + d * d) by (apply sqrt_sqrt; pose proof (sqn c); pose proof (sqn d); lra). replace (c / H * (c / H) + d / H * (d / H)) with ((c * c + d * d) / (H * H)) by (field; lra). rewrite <- HH. field. lra. }
    split; [exact NW1|]. split; [exact NW2|]. intros Z. rewrite (YD Z). split; [unfold Rdiv; ring|rewrite <- (YD Z); exact FD].
Qed.
Lemma add_sq_fl0 (x d : F) : flr d 0 -> o_add (o_mul x x) (o_mul d d) = (o_mul x x : F).
Proof.
  intros (FD & D0). destruct d as [b|b| |b m e BB]; try discriminate.
  - replace (o_mul (B754_zero b : F) (B754_zero b)) with (B754_zero false : F) by (destruct b; reflexivity).
    pose proof (sq_zero_sign x) as H. destruct (o_mul x x) as [c|c| |c m e BB] eqn:E; try reflexivity. rewrite (H c eq_refl). reflexivity.
  - exfalso. cbn [B2R] in D0. apply eq_0_F2R in D0. destruct b; discriminate.
Qed.
End F64.
