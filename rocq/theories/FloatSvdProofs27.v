(** * FloatSvdProofs27.v - Householder QR with an arbitrary third column, in double precision (C120) *)

From Coq Require Import ZArith Reals List Bool Lra Lia Psatz.
From Flocq Require Import Core BinarySingleNaN.
From Verif Require Import Scalar Linalg Householder Spec SpecFloatErr RealBase VecLemmas FloatBase FloatRound FloatErrProofs FloatApprox FloatRigidProofs
  FloatDirProofs FloatViewProofs QRProofs JacProofs SpecSvd SymEigenProofs SymEigenProofs4 SymEigenProofs6 FloatQRProofs FloatQRProofs2.
Import ListNotations.
Local Open Scope R_scope.

Section QR64.
Variables fsin fcos : binary_float 53 1024 -> binary_float 53 1024.
Local Notation F := (binary_float 53 1024).
Local Notation O64 := (B_ops 53 1024 f64_prec f64_emax fsin fcos).
Local Hint Extern 0 (Ops (binary_float 53 1024)) => exact (B_ops 53 1024 f64_prec f64_emax fsin fcos) : typeclass_instances.
Local Notation u := (bpow radix2 (- (53))).
Local Notation big := (bpow radix2 1024).
Local Notation tiny := (bpow radix2 (2 - 1024)).
Local Notation flr := (fl 53 1024).
Local Notation rnd := (rnd 53 1024).
Local Notation app := (app 53 1024 u).
Local Notation pad := (pad 53 1024 f64_prec f64_emax fsin fcos).
Local Notation lfin := (lfin 53 1024).
Local Notation b2 := (bpow radix2).

Lemma P14' : (14 <= 53)%Z. Proof. lia. Qed.
Lemma E17' : (17 <= 1024)%Z. Proof. lia. Qed.
Lemma fl_signum0 (x : F) : is_finite x = true -> exists s, flr (o_signum x) s /\ s * s = 1.
Proof.
  intros X. cbn [o_signum B_ops]. destruct x as [b|b| |b m e B]; try discriminate; cbn [is_nan Bsign]; pose proof (fl_one' 53 1024 f64_prec f64_emax fsin fcos) as O; change (flr Bone 1) in O;
    (destruct b; [exists (- (1)); split; [apply (fl_neg 53 1024 f64_prec f64_emax fsin fcos _ _ O)|ring]|exists 1; split; [exact O|ring]]).
Qed.
Lemma fl_sqrt0 (x : F) a : flr x a -> 0 <= a -> flr (o_sqrt x) (rnd (sqrt a)).
Proof.
  intros X A. destruct (Req_dec a 0) as [->|N]; [|apply fl_sqrt; [exact X|lra]].
  rewrite sqrt_0, rnd_id by (exact f64_prec || apply fmt_0). destruct X as (X1 & X2).
  destruct x as [b|b| |b m e B]; try discriminate; [split; reflexivity|]. exfalso. cbn [B2R] in X2.
  destruct b; [pose proof (F2R_lt_0 radix2 (Float radix2 (Z.neg m) e) eq_refl) as G|pose proof (F2R_gt_0 radix2 (Float radix2 (Z.pos m) e) eq_refl) as G];
    change (F2R (Float radix2 (Z.neg m) e) = 0) in X2 || change (F2R (Float radix2 (Z.pos m) e) = 0) in X2; lra.
Qed.
Lemma rnd_b2 x e : (- (1074) <= e)%Z -> Rabs x <= b2 e -> Rabs (rnd x) <= b2 e.
Proof. intros E H. apply (rnd_abs_le 53 1024 f64_prec); [apply (fmt_bpow 53 1024 f64_prec); lia|exact H]. Qed.
Lemma rnd_b2_ge x e : (- (1074) <= e)%Z -> b2 e <= Rabs x -> b2 e <= Rabs (rnd x).
Proof. intros E H. apply (rnd_abs_ge 53 1024 f64_prec); [apply (fmt_bpow 53 1024 f64_prec); lia|exact H]. Qed.
Lemma rnd_pos x : 0 <= x -> 0 <= rnd x.
Proof. intros H. apply (rnd_ge_fmt 53 1024 f64_prec); [apply fmt_0|exact H]. Qed.
Lemma b2_big e x : (e < 1024)%Z -> Rabs x <= b2 e -> Rabs x < FloatRound.big 1024.
Proof. intros E H. eapply Rle_lt_trans; [exact H|]. apply bpow_lt. exact E. Qed.
Lemma fmt_pos_ge x : fmt 53 1024 x -> 0 < x -> b2 (- (1074)) <= x.
Proof. intros H P. apply (generic_format_ge_bpow radix2 (SpecFloat.fexp 53 1024)); [intros e; unfold SpecFloat.fexp, SpecFloat.emin; lia|exact P|exact H]. Qed.
Lemma sqrt_b2 x e : 0 <= x -> x <= b2 (2 * e) -> sqrt x <= b2 e.
Proof.
  intros P H. rewrite <- (sqrt_Rsqr (b2 e)) by apply bpow_ge_0. apply sqrt_le_1_alt. unfold Rsqr. rewrite <- bpow_plus. replace (e + e)%Z with (2 * e)%Z by lia. exact H.
Qed.
Lemma sqrt_b2_ge x e : b2 (2 * e) <= x -> b2 e <= sqrt x.
Proof.
  intros H. rewrite <- (sqrt_Rsqr (b2 e)) by apply bpow_ge_0. apply sqrt_le_1_alt. unfold Rsqr. rewrite <- bpow_plus. replace (e + e)%Z with (2 * e)%Z by lia. exact H.
Qed.
Lemma b2_twice e : b2 e + b2 e = b2 (e + 1). Proof. rewrite bpow_plus. change (bpow radix2 1) with 2. ring. Qed.

(** what the third pivot does: it may be as small as any float *)
Definition last_ok (c : F) (r : R) : Prop := exists axis d nz s rd, reflection_axis_mut [c] = ([axis], d, nz) /\ s * s = 1 /\
  (exists y ys, reflect_with_sign [axis] (o_signum d) [o_one] = [y] /\ flr y ys /\ Rabs (ys - s) <= 534 * u) /\
  flr (o_abs d) rd /\ Rabs (rd - s * r) <= 4 * u * Rabs r + b2 (- (498)).

Lemma len1 (x : R) : vlen (mkV3 x 0 0) = Rabs x.
Proof. unfold vlen. rewrite <- sqrt_Rsqr_abs. f_equal. unfold Rsqr. ru_spec. ring. Qed.
Lemma fl_len1 (c : F) r : flr c r -> pad [c] = mkV3 r 0 0.
Proof. intros (C1 & C2). unfold FloatQRProofs.pad, FloatQRProofs.e_. cbn [nth]. rewrite C2. destruct (fl_zero' 53 1024 f64_prec f64_emax fsin fcos) as (_ & Z). rewrite Z. reflexivity. Qed.
Lemma lfin1 (c : F) r : flr c r -> lfin [c].
Proof. intros (C1 & _). apply Forall_cons; [exact C1|apply Forall_nil]. Qed.
(** the reflection of the last unit vector, for an axis that is nearly a unit vector *)
Lemma last_reflect (axis sg : F) a s t : flr axis a -> Rabs (a - t) <= 71 * u -> t * t = 1 -> flr sg s -> s * s = 1 ->
  exists y ys, reflect_with_sign [axis] sg [o_one] = [y] /\ flr y ys /\ Rabs (ys - - s) <= 534 * u.
Proof.
  intros FA DA TT FS SS. pose proof (fl_one' 53 1024 f64_prec f64_emax fsin fcos) as O.
  pose proof (bpow_gt_0 radix2 (- (53))) as U0.
  destruct (reflect_app 53 1024 f64_prec f64_emax fsin fcos P14' E17' [axis] (mkV3 t 0 0) sg s [o_one] 1) as (L & FR & D); try assumption; try reflexivity; try (cbn [length]; lia).
  - now apply (lfin1 _ a).
  - now apply (lfin1 _ 1).
  - rewrite (fl_len1 _ a FA). rewrite axis_dist. lra.
  - ru_spec. lra.
  - intros i I. cbn [length] in I. destruct i as [|[|[|i]]]; try reflexivity; lia.
  - rewrite (fl_len1 _ 1 O), len1, Rabs_R1. apply Rle_refl.
  - apply (bpow_le radix2 _ 0). lia.
  - replace (64 * 1) with (b2 6) by (simpl; lra). apply bpow_le. lia.
  - set (r := reflect_with_sign [axis] sg [o_one]) in *. destruct r as [|y [|? ?]] eqn:ER; try discriminate. exists y, (B2R y). split; [reflexivity|].
    assert (FY : flr y (B2R y)) by (inversion FR; split; [assumption|reflexivity]). split; [exact FY|].
    rewrite (fl_len1 _ _ FY), (fl_len1 _ 1 O) in D. unfold refl in D. rewrite Rmult_1_r in D.
    replace (vscl s (vsub (mkV3 1 0 0) (vscl (2 * vdot (mkV3 t 0 0) (mkV3 1 0 0)) (mkV3 t 0 0)))) with (mkV3 (- s) 0 0) in D.
    + rewrite axis_dist in D. exact D.
    + apply V3_eq; ru_spec; [|ring|ring]. replace (s * (1 - 2 * (t * 1 + 0 * 0 + 0 * 0) * t)) with (s * (1 - 2 * (t * t))) by ring. rewrite TT. ring.
Qed.
Lemma last_big (c : F) r : flr c r -> b2 (- (500)) <= Rabs r <= b2 500 -> last_ok c r.
Proof.
  intros FC RB. pose proof (fl_len1 c r FC) as PC.
  destruct (axis_app 53 1024 f64_prec f64_emax fsin fcos P14' E17' [c] 500) as (axis & d & s & w & A1 & A2 & A3 & A4 & A5 & A6 & A7 & A8 & A9 & A10); try lia; try (cbn [length]; lia).
  - now apply (lfin1 _ r).
  - rewrite PC, len1. exact RB.
  - rewrite PC, len1 in *. destruct axis as [|ax [|? ?]]; try discriminate.
    assert (W1 : comp w 1 = 0) by (apply A10; cbn [length]; lia). assert (W2 : comp w 2 = 0) by (apply A10; cbn [length]; lia). destruct w as [t w1 w2]. cbn [comp vy vz] in W1, W2. subst w1 w2.
    assert (TT : t * t = 1) by (revert A5; ru_spec; lra).
    assert (FA : flr ax (B2R ax)) by (inversion A3; split; [assumption|reflexivity]). rewrite (fl_len1 _ _ FA), axis_dist in A4.
    assert (SR : - s * r = Rabs r).
    { apply (f_equal vx) in A8. revert A8. ru_spec. intros A8. replace (s * (r - 2 * (t * r + 0 * 0 + 0 * 0) * t)) with (s * (r - 2 * (t * t) * r)) in A8 by ring. rewrite TT in A8. lra. }
    destruct A9 as (rd & FD & DD & _). exists ax, d, true, (- s), rd. split; [exact A1|]. split; [lra|]. split.
    + exact (last_reflect ax _ _ s t FA A4 TT A7 A6).
    + split; [exact FD|]. rewrite SR. pose proof (bpow_ge_0 radix2 (- (498))). lra.
Qed.
(** an axis that was not normalised leaves the unit vector, up to sign *)
Lemma last_tiny (axis sg : F) a s : flr axis a -> Rabs a <= b2 (- (499)) -> flr sg s -> s * s = 1 ->
  exists y ys, reflect_with_sign [axis] sg [o_one] = [y] /\ flr y ys /\ Rabs (ys - s) <= 534 * u.
Proof.
  intros FA LA FS SS. pose proof (fl_one' 53 1024 f64_prec f64_emax fsin fcos) as O. pose proof (fl_zero' 53 1024 f64_prec f64_emax fsin fcos) as Z.
  unfold reflect_with_sign. cbn [combine map fst snd]. eexists. cut (exists ys, flr (o_add (o_mul (o_mul (o_sub (ldot [axis] [o_one]) o_zero) (o_mul sg o_mtwo)) axis) (o_mul sg o_one)) ys /\ Rabs (ys - s) <= 534 * u).
  { intros (ys & H). exists ys. split; [reflexivity|exact H]. }
  assert (SA : Rabs s = 1). { assert (Rabs s * Rabs s = 1) by (rewrite <- Rabs_mult, SS; apply Rabs_R1). pose proof (Rabs_pos s). nra. }
  pose proof (fl_mtwo 53 1024 f64_prec f64_emax fsin fcos P14' E17') as M2.
  pose proof (fl_sign_mul 53 1024 f64_prec f64_emax fsin fcos _ _ _ _ FS M2 SS) as SM. pose proof (fl_sign_mul 53 1024 f64_prec f64_emax fsin fcos _ _ _ _ FS O SS) as SO.
  pose proof (mul_1_r 53 1024 f64_prec f64_emax fsin fcos _ _ FA) as A1. pose proof (add_0_l 53 1024 f64_prec f64_emax fsin fcos _ _ _ Z A1) as A2.
  assert (A3 : flr (o_sub (ldot [axis] [o_one]) o_zero) a).
  { change (ldot [axis] [o_one]) with (o_add o_zero (o_mul axis o_one)). pose proof (fl_sub 53 1024 f64_prec f64_emax fsin fcos _ _ _ _ A2 Z) as H. rewrite Rminus_0_r in H.
    rewrite rnd_id in H by (exact f64_prec || exact (fl_fmt _ _ _ _ FA)). apply H. exact (fl_lt_big _ _ _ _ FA). }
  set (x := o_sub (ldot [axis] [o_one]) o_zero) in *. clearbody x.
  assert (L1 : Rabs (a * (s * - (2))) <= b2 (- (498))).
  { rewrite !Rabs_mult, SA, Rabs_Ropp, (Rabs_pos_eq 2) by lra. replace (- (498))%Z with (- (499) + 1)%Z by lia. rewrite <- b2_twice. lra. }
  pose proof (rnd_b2 _ (- (498)) ltac:(lia) L1) as L2.
  pose proof (fl_mul 53 1024 f64_prec f64_emax fsin fcos _ _ _ _ A3 SM (b2_big (- (498)) _ ltac:(lia) L2)) as FF. set (f := rnd (a * (s * - (2)))) in *.
  assert (L3 : Rabs (f * a) <= b2 (- (997))).
  { rewrite Rabs_mult. replace (- (997))%Z with (- (498) + - (499))%Z by lia. rewrite bpow_plus. apply Rmult_le_compat; try apply Rabs_pos; assumption. }
  pose proof (rnd_b2 _ (- (997)) ltac:(lia) L3) as L4.
  pose proof (fl_mul 53 1024 f64_prec f64_emax fsin fcos _ _ _ _ FF FA (b2_big (- (997)) _ ltac:(lia) L4)) as FP. set (p := rnd (f * a)) in *.
  rewrite Rmult_1_r in SO.
  assert (Ps : b2 (- (997)) <= u) by (apply bpow_le; lia). pose proof (bpow_gt_0 radix2 (- (53))) as U0. assert (U1 : u <= 1) by (apply (bpow_le radix2 _ 0); lia).
  assert (T1 : tiny <= 2) by (apply Rle_trans with 1; [apply (bpow_le radix2 _ 0); lia|lra]).
  assert (B8 : 8 < big) by (replace 8 with (b2 3) by (simpl; lra); apply bpow_lt; lia).
  destruct (add_err 53 1024 f64_prec f64_emax fsin fcos _ _ p s 2 FP SO T1) as (y & Y1 & Y2 & _).
  { eapply Rle_trans; [apply Rabs_triang|]. lra. } { nra. }
  assert (Y : flr (o_add (o_mul (o_mul x (o_mul sg o_mtwo)) axis) (o_mul sg o_one)) y) by exact Y1.
  exists y. split; [exact Y|]. replace (y - s) with ((y - (p + s)) + p) by ring. eapply Rle_trans; [apply Rabs_triang|]. lra.
Qed.
Lemma sign_abs s r t : s * s = 1 -> s * r = Rabs r -> 0 <= t -> Rabs r <= Rabs (r + s * t).
Proof.
  intros SS SR T. assert (SA : Rabs s = 1). { assert (Rabs s * Rabs s = 1) by (rewrite <- Rabs_mult, SS; apply Rabs_R1). pose proof (Rabs_pos s). nra. }
  rewrite <- (Rmult_1_l (Rabs (r + s * t))), <- SA, <- Rabs_mult. replace (s * (r + s * t)) with (s * r + s * s * t) by ring. rewrite SS, SR. pose proof (Rabs_pos r). rewrite (Rabs_pos_eq (Rabs r + 1 * t)); lra.
Qed.
Lemma last_small (c : F) r : flr c r -> Rabs r <= b2 (- (500)) -> last_ok c r.
Proof.
  intros FC RB. pose proof (fl_one' 53 1024 f64_prec f64_emax fsin fcos) as O. pose proof (fl_zero' 53 1024 f64_prec f64_emax fsin fcos) as Z.
  pose proof (bpow_gt_0 radix2 (- (53))) as U0. pose proof (Rabs_pos r) as R0.
  destruct (to_exp_fl 53 1024 f64_prec f64_emax fsin fcos c r FC) as (m & g & s & ET & FM & FG & SS & SR).
  assert (SA : Rabs s = 1). { assert (Rabs s * Rabs s = 1) by (rewrite <- Rabs_mult, SS; apply Rabs_R1). pose proof (Rabs_pos s). nra. }
  (* the square and the norm *)
  assert (RR : 0 <= r * r <= b2 (- (1000))).
  { split; [apply Rle_0_sqr|]. replace (r * r) with (Rabs r * Rabs r) by (rewrite <- Rabs_mult; apply Rabs_pos_eq, Rle_0_sqr). replace (- (1000))%Z with (- (500) + - (500))%Z by lia. rewrite bpow_plus. apply Rmult_le_compat; assumption. }
  pose proof (rnd_pos _ (proj1 RR)) as Q0. set (q := rnd (r * r)) in *.
  assert (Q1 : q <= b2 (- (1000))). { rewrite <- (Rabs_pos_eq q) by exact Q0. apply rnd_b2; [lia|]. rewrite Rabs_pos_eq; lra. }
  assert (FQ : flr (ldot [c] [c]) q).
  { change (ldot [c] [c]) with (o_add o_zero (o_mul c c)). apply (add_0_l 53 1024 f64_prec f64_emax fsin fcos _ _ _ Z).
    apply (fl_mul 53 1024 f64_prec f64_emax fsin fcos _ _ _ _ FC FC). fold q. apply (b2_big (- (1000))); [lia|]. rewrite Rabs_pos_eq; assumption. }
  pose proof (fl_sqrt0 _ _ FQ Q0) as FN. pose proof (rnd_pos _ (sqrt_pos q)) as N0. set (n := rnd (sqrt q)) in *.
  assert (N1 : n <= b2 (- (500))). { rewrite <- (Rabs_pos_eq n) by exact N0. apply rnd_b2; [lia|]. rewrite Rabs_pos_eq by apply sqrt_pos. apply sqrt_b2; assumption. }
  pose proof (fl_sign_mul 53 1024 f64_prec f64_emax fsin fcos _ _ _ _ FG FN SS) as FSN.
  (* the column *)
  assert (C1 : Rabs (r + s * n) <= b2 (- (499))).
  { eapply Rle_trans; [apply Rabs_triang|]. rewrite Rabs_mult, SA, (Rabs_pos_eq n) by exact N0. replace (- (499))%Z with (- (500) + 1)%Z by lia. rewrite <- b2_twice. lra. }
  pose proof (rnd_b2 _ (- (499)) ltac:(lia) C1) as C2.
  pose proof (fl_add 53 1024 f64_prec f64_emax fsin fcos _ _ _ _ FC FSN (b2_big (- (499)) _ ltac:(lia) C2)) as FCC.
  assert (C3 : Rabs r <= Rabs (rnd (r + s * n))).
  { apply (rnd_abs_ge 53 1024 f64_prec); [apply fmt_abs; exact (fl_fmt _ _ _ _ FC)|]. now apply sign_abs. }
  set (cc := rnd (r + s * n)) in *.
  (* the factor *)
  assert (P0 : 0 <= Rabs r * n <= b2 (- (1000))).
  { split; [now apply Rmult_le_pos|]. replace (- (1000))%Z with (- (500) + - (500))%Z by lia. rewrite bpow_plus. apply Rmult_le_compat; assumption. }
  pose proof (rnd_pos _ (proj1 P0)) as P1. set (p := rnd (Rabs r * n)) in *.
  assert (P2 : p <= b2 (- (1000))). { rewrite <- (Rabs_pos_eq p) by exact P1. apply rnd_b2; [lia|]. rewrite Rabs_pos_eq; lra. }
  assert (FP : flr (o_mul m (o_sqrt (ldot [c] [c]))) p).
  { apply (fl_mul 53 1024 f64_prec f64_emax fsin fcos _ _ _ _ FM FN). fold p. apply (b2_big (- (1000))); [lia|]. rewrite Rabs_pos_eq; assumption. }
  assert (S0 : 0 <= q + p <= b2 (- (999))). { split; [lra|]. replace (- (999))%Z with (- (1000) + 1)%Z by lia. rewrite <- b2_twice. lra. }
  pose proof (rnd_pos _ (proj1 S0)) as S1. pose proof (rnd_ge_fmt 53 1024 f64_prec q (q + p) (rnd_fmt 53 1024 f64_prec _) ltac:(lra)) as S2. set (t := rnd (q + p)) in *.
  assert (S3 : t <= b2 (- (999))). { rewrite <- (Rabs_pos_eq t) by exact S1. apply rnd_b2; [lia|]. rewrite Rabs_pos_eq; lra. }
  assert (FT : flr (o_add (ldot [c] [c]) (o_mul m (o_sqrt (ldot [c] [c])))) t).
  { apply (fl_add 53 1024 f64_prec f64_emax fsin fcos _ _ _ _ FQ FP). fold t. apply (b2_big (- (999))); [lia|]. rewrite Rabs_pos_eq; assumption. }
  assert (T0 : 0 <= t * 2 <= b2 (- (998))). { split; [lra|]. replace (- (998))%Z with (- (999) + 1)%Z by lia. rewrite <- b2_twice. lra. }
  pose proof (rnd_pos _ (proj1 T0)) as T1. pose proof (rnd_ge_fmt 53 1024 f64_prec q (t * 2) (rnd_fmt 53 1024 f64_prec _) ltac:(lra)) as T2. set (f := rnd (t * 2)) in *.
  assert (T3 : f <= b2 (- (998))). { rewrite <- (Rabs_pos_eq f) by exact T1. apply rnd_b2; [lia|]. rewrite Rabs_pos_eq; lra. }
  assert (FF : flr (o_mul (o_add (ldot [c] [c]) (o_mul m (o_sqrt (ldot [c] [c])))) o_two) f).
  { apply (fl_mul 53 1024 f64_prec f64_emax fsin fcos _ _ _ _ FT (fl_two 53 1024 f64_prec f64_emax fsin fcos E17')). fold f. apply (b2_big (- (998))); [lia|]. rewrite Rabs_pos_eq; assumption. }
  (* the two ends *)
  assert (RD : forall z : R, z * z = 1 -> Rabs (n - z * r) <= 4 * u * Rabs r + b2 (- (498))).
  { intros z ZZ. assert (ZA : Rabs z = 1). { assert (Rabs z * Rabs z = 1) by (rewrite <- Rabs_mult, ZZ; apply Rabs_R1). pose proof (Rabs_pos z). nra. }
    replace (n - z * r) with (n + - (z * r)) by ring. eapply Rle_trans; [apply Rabs_triang|]. rewrite Rabs_Ropp, Rabs_mult, ZA, (Rabs_pos_eq n) by exact N0.
    assert (0 <= 4 * u * Rabs r) by (apply Rmult_le_pos; lra). assert (b2 (- (500)) + b2 (- (500)) <= b2 (- (498))) by (rewrite b2_twice; apply bpow_le; lia). lra. }
  assert (AB : Rabs (s * n) = n) by (rewrite Rabs_mult, SA, Rabs_pos_eq; lra).
  unfold last_ok, reflection_axis_mut. rewrite ET. cbv zeta.
  set (sq := ldot [c] [c]) in *. set (nf := o_sqrt sq) in *. set (fac := o_mul (o_add sq (o_mul m nf)) o_two) in *. set (cf := o_add c (o_mul g nf)) in *. set (snf := o_mul g nf) in *.
  clearbody sq nf fac cf snf. destruct (o_eqb fac o_zero) eqn:EQ; cbn [negb map].
  - destruct (fl_signum0 snf (proj1 FSN)) as (z & FZ & ZZ). exists cf, snf, false, z, n. split; [reflexivity|]. split; [exact ZZ|]. split; [exact (last_tiny cf _ cc z FCC C2 FZ ZZ)|].
    split; [|now apply RD]. pose proof (fl_abs 53 1024 f64_prec f64_emax fsin fcos _ _ FSN) as FD. rewrite AB in FD. exact FD.
  - assert (FNZ : f <> 0). { intros Q. assert (o_eqb fac o_zero = true) by (apply (fl_eqb 53 1024 f64_prec f64_emax fsin fcos _ _ _ _ FF Z); exact Q). congruence. }
    assert (QP : 0 < q).
    { destruct (Req_dec q 0) as [Q|]; [|lra]. exfalso. apply FNZ. unfold f, t, p, n. assert (R00 : rnd 0 = 0) by (apply rnd_id; [apply fmt_0]).
      rewrite Q, sqrt_0, R00, Rmult_0_r, R00, Rplus_0_r, R00, Rmult_0_l. exact R00. }
    pose proof (fmt_pos_ge q (rnd_fmt 53 1024 f64_prec _) QP) as QE.
    assert (RL : b2 (- (538)) <= Rabs r).
    { apply Rnot_lt_le. intros LT. assert (X : r * r <= b2 (- (1076))).
      { replace (r * r) with (Rabs r * Rabs r) by (rewrite <- Rabs_mult; apply Rabs_pos_eq, Rle_0_sqr). replace (- (1076))%Z with (- (538) + - (538))%Z by lia. rewrite bpow_plus. apply Rmult_le_compat; lra. }
      assert (X2 : b2 (- (1076)) <= tiny) by (apply bpow_le; lia).
      pose proof (rnd_err 53 1024 f64_prec (r * r) tiny (Rle_refl _) ltac:(rewrite Rabs_pos_eq; lra)) as E. fold q in E. apply Rabs_le_inv in E. rewrite <- bpow_plus in E.
      replace (- (53) + (2 - 1024))%Z with (1 + - (1076))%Z in E by lia. rewrite bpow_plus in E. replace (- (1074))%Z with (2 + - (1076))%Z in QE by lia. rewrite bpow_plus in QE.
      change (b2 1) with 2 in E. change (b2 2) with 4 in QE. pose proof (bpow_gt_0 radix2 (- (1076))). lra. }
    assert (FE : b2 (2 * - (537)) <= f) by (apply Rle_trans with q; [exact QE|exact T2]).
    pose proof (fl_sqrt0 _ _ FF T1) as FG2.
    pose proof (rnd_b2_ge (sqrt f) (- (537)) ltac:(lia) ltac:(rewrite Rabs_pos_eq by apply sqrt_pos; now apply sqrt_b2_ge)) as G1.
    pose proof (rnd_b2 (sqrt f) (- (499)) ltac:(lia) ltac:(rewrite Rabs_pos_eq by apply sqrt_pos; now apply sqrt_b2)) as G2.
    rewrite Rabs_pos_eq in G1, G2 by (apply rnd_pos, sqrt_pos). set (gq := rnd (sqrt f)) in *. set (gf := o_sqrt fac) in *. clearbody gf.
    pose proof (bpow_gt_0 radix2 (- (537))) as G0.
    assert (D1 : b2 (- (39)) <= Rabs (cc / gq) <= b2 38).
    { unfold Rdiv. rewrite Rabs_mult, Rabs_inv, (Rabs_pos_eq gq) by lra. split.
      - replace (- (39))%Z with (- (538) + 499)%Z by lia. rewrite bpow_plus. apply Rmult_le_compat; try apply bpow_ge_0; [lra|]. replace 499%Z with (- - (499))%Z by lia. rewrite bpow_opp. apply Rinv_le_contravar; lra.
      - replace 38%Z with (- (499) + 537)%Z by lia. rewrite bpow_plus. apply Rmult_le_compat; try apply Rabs_pos; [left; apply Rinv_0_lt_compat; lra|exact C2|]. replace 537%Z with (- - (537))%Z by lia. rewrite bpow_opp. apply Rinv_le_contravar; lra. }
    pose proof (rnd_b2_ge _ (- (39)) ltac:(lia) (proj1 D1)) as D2. pose proof (rnd_b2 _ 38 ltac:(lia) (proj2 D1)) as D3.
    pose proof (fl_div 53 1024 f64_prec f64_emax fsin fcos _ _ _ _ FCC FG2 ltac:(lra) (b2_big 38 _ ltac:(lia) D3)) as FD1. set (c1 := rnd (cc / gq)) in *. set (cf1 := o_div cf gf) in *. clearbody cf1.
    set (a := Rabs c1) in *. assert (A0 : 0 < a) by (pose proof (bpow_gt_0 radix2 (- (39))); lra).
    assert (AA1 : b2 (- (78)) <= a * a) by (replace (- (78))%Z with (- (39) + - (39))%Z by lia; rewrite bpow_plus; apply Rmult_le_compat; try apply bpow_ge_0; assumption).
    assert (AA2 : a * a <= b2 76) by (replace 76%Z with (38 + 38)%Z by lia; rewrite bpow_plus; apply Rmult_le_compat; try apply Rabs_pos; assumption).
    assert (TT1 : tiny <= b2 (- (78))) by (apply bpow_le; lia). assert (TT2 : tiny <= b2 (- (39))) by (apply bpow_le; lia).
    assert (BB1 : 8 * b2 76 < big) by (change 8 with (b2 3); rewrite <- bpow_plus; apply bpow_lt; lia). assert (BB2 : 8 * b2 38 < big) by (change 8 with (b2 3); rewrite <- bpow_plus; apply bpow_lt; lia).
    assert (SQ1 : app (ldot [cf1] [cf1]) (a * a) (a * a) 5.1).
    { pose proof (ldot_app 53 1024 f64_prec f64_emax fsin fcos P14' [cf1] [cf1] (a * a) eq_refl ltac:(cbn [length]; lia) (lfin1 _ _ FD1) (lfin1 _ _ FD1)) as H. rewrite (fl_len1 _ _ FD1), len1 in H. fold a in H.
      replace (vdot (mkV3 c1 0 0) (mkV3 c1 0 0)) with (a * a) in H by (unfold a; rewrite <- Rabs_mult, Rabs_pos_eq by apply Rle_0_sqr; ru_spec; ring). apply H; lra. }
    pose proof (app_sqrt 53 1024 f64_prec f64_emax fsin fcos P14' _ a 5.1 SQ1 ltac:(lra) ltac:(lra) ltac:(lra)) as SN1.
    set (nf1 := o_sqrt (ldot [cf1] [cf1])) in *. clearbody nf1.
    assert (AX : app (o_div cf1 nf1) (c1 / a) (a / a) (1.01 * 0 + 1.01 * (0.51 * 5.1 + 1.01) + 1.02)).
    { assert (a / a = 1) as X by (field; lra). apply (app_div 53 1024 f64_prec f64_emax fsin fcos P14'); try assumption; try lra.
      - apply app_fl; [exact FD1|apply Rle_refl].
      - rewrite X. apply (bpow_le radix2 _ 0). lia.
      - rewrite X. replace (4 * 1) with (b2 2) by (simpl; lra). apply bpow_lt. lia. }
    destruct AX as (ra & FRA & DRA & _). replace (a / a) with 1 in DRA by (field; lra).
    assert (TA : c1 / a * (c1 / a) = 1).
    { replace (c1 / a * (c1 / a)) with (c1 * c1 / (a * a)) by (field; lra). replace (c1 * c1) with (a * a); [field; lra|]. unfold a. rewrite <- Rabs_mult. apply Rabs_pos_eq, Rle_0_sqr. }
    pose proof (fl_neg 53 1024 f64_prec f64_emax fsin fcos _ _ FSN) as FNS. destruct (fl_signum0 _ (proj1 FNS)) as (z & FZ & ZZ).
    exists (o_div cf1 nf1), (o_neg snf), true, (- z), n. split; [reflexivity|]. split; [lra|]. split.
    + apply (last_reflect _ _ ra z (c1 / a) FRA); [|exact TA|exact FZ|exact ZZ]. eapply Rle_trans; [exact DRA|]. lra.
    + split; [|apply RD; lra]. pose proof (fl_abs 53 1024 f64_prec f64_emax fsin fcos _ _ FNS) as FD. rewrite Rabs_Ropp, AB in FD. exact FD.
Qed.
Lemma last_any (c : F) r : flr c r -> Rabs r <= b2 500 -> last_ok c r.
Proof. intros FC H. destruct (Rle_lt_dec (Rabs r) (b2 (- (500)))); [now apply last_small|apply last_big; [exact FC|lra]]. Qed.

(** the whole decomposition: only the first two columns have to be large and independent *)
Lemma qr_unfold2 (a b c axis0 axis1 axis2 : list F) (d0 d1 d2 : F) nz : let row i ax (d : F) := on_rows_from i (reflect_with_sign ax (o_signum d)) in
  reflection_axis_mut (skipn 0 a) = (axis0, d0, true) ->
  let b1 := row 0%nat axis0 d0 b in let c1 := row 0%nat axis0 d0 c in reflection_axis_mut (skipn 1 b1) = (axis1, d1, true) ->
  let c2 := row 1%nat axis1 d1 c1 in reflection_axis_mut (skipn 2 c2) = (axis2, d2, nz) ->
  qr_new [a; b; c] = mkQR [axis0; firstn 1 b1 ++ axis1; firstn 2 c2 ++ axis2] [d0; d1; d2].
Proof.
  intros row E0 b1 c1 E1 c2 E2. unfold qr_new. unfold clear_column at 1. cbn [nth]. rewrite E0. cbn [map_cols Nat.eqb Nat.ltb Nat.leb andb].
  change (on_rows_from 0 (reflect_with_sign axis0 (o_signum d0)) b) with b1. change (on_rows_from 0 (reflect_with_sign axis0 (o_signum d0)) c) with c1.
  unfold clear_column at 1. cbn [nth]. rewrite E1. cbn [map_cols Nat.eqb Nat.ltb Nat.leb andb].
  change (on_rows_from 1 (reflect_with_sign axis1 (o_signum d1)) c1) with c2.
  unfold clear_column at 1. cbn [nth]. rewrite E2. cbn [map_cols Nat.eqb Nat.ltb Nat.leb andb]. reflexivity.
Qed.
Local Notation qr_col := (qr_col 53 1024 f64_prec f64_emax fsin fcos).
Local Notation e_ := (e_ 53 1024 f64_prec f64_emax fsin fcos).
Local Notation u14 := (u14 53 P14').
Local Notation tiny1 := (tiny_le_1 1024 E17').
Lemma fc0 (m : M33 F) : fcol0 53 1024 m = [m00 m; m10 m; m20 m]. Proof. reflexivity. Qed.
Lemma qr_app2 (a b c : list F) Y : length a = 3%nat -> length b = 3%nat -> length c = 3%nat -> lfin a -> lfin b -> lfin c ->
  b2 (- (440)) <= Y <= b2 440 -> indep 0.5 (pad a) (pad b) vO -> 0.4 * Y <= vlen (pad a) <= Y -> 0.4 * Y <= vlen (pad b) <= Y -> vlen (pad c) <= Y ->
  exists W, orthogonal W /\ let d := qr_new [a; b; c] in let q := qr_q d in let r := qr_r d in
    qr_col (fcol0 53 1024 q) (mcol0 W) (1780 * u) /\ qr_col (fcol1 53 1024 q) (mcol1 W) (1780 * u) /\ qr_col (fcol2 53 1024 q) (mcol2 W) (1780 * u) /\
    qr_col (fcol0 53 1024 r) (mv (mtr W) (pad a)) (1140 * u * Y) /\ qr_col (fcol1 53 1024 r) (mv (mtr W) (pad b)) (1140 * u * Y) /\
    qr_col (fcol2 53 1024 r) (mv (mtr W) (pad c)) (1140 * u * Y) /\
    0 < B2R (m00 r) /\ 0 < B2R (m11 r) /\ 0 <= B2R (m22 r) /\ m10 r = o_zero /\ m20 r = o_zero /\ m21 r = o_zero.
Proof.
  intros LA LB LC FA FB FC YR IND AR BR CR. pose proof (u0 53) as U0. pose proof u14 as U14.
  assert (U20 : u <= 1 / 1000000) by (apply Rle_trans with (b2 (- (20))); [apply bpow_le; lia|simpl; lra]).
  set (A := pad a) in *. set (B := pad b) in *. set (C := pad c) in *. pose proof (bpow_gt_0 radix2 (- (440))) as EP.
  pose proof (vlen_nonneg A) as A0. pose proof (vlen_nonneg B) as B0. pose proof (vlen_nonneg C) as C0.
  assert (YP : 0 < Y) by lra. assert (uY : 0 < u * Y) by (now apply Rmult_lt_0_compat). assert (uY6 : u * Y <= Y / 1000000) by nra.
  assert (E1 : 1000000 * b2 (- (500)) <= b2 (- (440))).
  { replace (- (440))%Z with (60 + - (500))%Z by lia. rewrite bpow_plus. apply Rmult_le_compat_r; [apply bpow_ge_0|]. simpl. lra. }
  assert (E2 : 1000000 * b2 440 <= b2 500).
  { replace 500%Z with (60 + 440)%Z by lia. rewrite bpow_plus. apply Rmult_le_compat_r; [apply bpow_ge_0|]. simpl. lra. }
  assert (E3 : b2 (- (498)) <= u * Y).
  { replace (- (498))%Z with (- (53) + - (445))%Z by lia. rewrite bpow_plus. apply Rmult_le_compat_l; [lra|]. apply Rle_trans with (b2 (- (440))); [apply bpow_le; lia|lra]. }
  assert (TY : tiny <= Y) by (apply Rle_trans with (b2 (- (440))); [apply bpow_le; lia|lra]).
  assert (BY : 1000000 * Y <= big). { apply Rle_trans with (b2 500); [lra|apply bpow_le; lia]. }
  assert (AP : 0 < vlen A) by lra.
  (* first pivot *)
  destruct (pivot_app 53 1024 f64_prec f64_emax fsin fcos P14' E17' 0 a 500) as (ax0 & d0 & s0 & w0 & P01 & P02 & P03 & P04 & P05 & P06 & P07 & P08); try assumption; try lia.
  { cbn [sub_vec]. fold A. lra. }
  cbn [sub_vec put_vec] in P07, P08. fold A in P07, P08.
  set (S1 := gmat 0 w0 s0) in *. assert (O1 : orthogonal S1) by (apply gmat_orthogonal; [lia|assumption]).
  destruct (step_app 53 1024 f64_prec f64_emax fsin fcos P14' E17' 0 ax0 w0 (o_signum d0) s0 b Y) as (b1L & b1F & b1D); try assumption; try lia; try lra. { exact (proj2 BR). }
  destruct (step_app 53 1024 f64_prec f64_emax fsin fcos P14' E17' 0 ax0 w0 (o_signum d0) s0 c Y) as (c1L & c1F & c1D); try assumption; try lia; try lra.
  set (b1 := on_rows_from 0 (reflect_with_sign ax0 (o_signum d0)) b) in *. set (c1 := on_rows_from 0 (reflect_with_sign ax0 (o_signum d0)) c) in *.
  fold S1 in b1D, c1D. fold B in b1D. fold C in c1D.
  pose proof (indep_mv 0.5 S1 A B vO O1 IND) as I1. rewrite P07 in I1.
  pose proof (pivot1_real 0.5 _ _ _ ltac:(lra) AP I1) as PB. rewrite orthogonal_len in PB by exact O1.
  pose proof (sub_near 1 (pad b1) (mv S1 B)) as N1. pose proof (vdist_len (pad b1) (mv S1 B)) as (_ & LB1). rewrite orthogonal_len in LB1 by exact O1.
  pose proof (vdist_len (pad c1) (mv S1 C)) as (_ & LC1). rewrite orthogonal_len in LC1 by exact O1.
  pose proof (sub_len 1 (pad b1)) as SB1.
  (* second pivot *)
  destruct (pivot_app 53 1024 f64_prec f64_emax fsin fcos P14' E17' 1 b1 500) as (ax1 & d1 & s1 & w1 & P11 & P12 & P13 & P14'' & P15 & P16 & P17 & P18); try assumption; try lia.
  { split; lra. }
  set (n1 := vlen (sub_vec 1 (pad b1))) in *. cbn [put_vec vx vy] in P17.
  set (S2 := gmat 1 w1 s1) in *. assert (O2 : orthogonal S2) by (apply gmat_orthogonal; [lia|assumption]).
  destruct (step_app 53 1024 f64_prec f64_emax fsin fcos P14' E17' 1 ax1 w1 (o_signum d1) s1 c1 (1.001 * Y)) as (c2L & c2F & c2D); try assumption; try lia; try lra.
  set (c2 := on_rows_from 1 (reflect_with_sign ax1 (o_signum d1)) c1) in *. fold S2 in c2D.
  assert (c2D' : vdist (pad c2) (mv S2 (mv S1 C)) <= 1070 * u * Y).
  { pose proof (vdist_triangle (pad c2) (mv S2 (pad c1)) (mv S2 (mv S1 C))) as T. rewrite (orth_dist S2) in T by exact O2. lra. }
  assert (F2 : forall x, mv S2 (mkV3 x 0 0) = mkV3 x 0 0) by (intros x; apply gmat_fix; [lia|assumption|reflexivity]).
  assert (DB : vdist (mv S2 (mv S1 B)) (mkV3 (e_ b1 0) n1 0) <= 534 * u * Y).
  { change (e_ b1 0) with (vx (pad b1)). rewrite <- P17, (orth_dist S2) by exact O2. rewrite vdist_sym. exact b1D. }
  pose proof (vdist_len (pad c2) (mv S2 (mv S1 C))) as (_ & LC2). rewrite !orthogonal_len in LC2 by assumption.
  (* third pivot *)
  assert (C22 : exists x0 x1 x2, c2 = [x0; x1; x2]) by (clearbody c2; destruct c2 as [|x0 [|x1 [|x2 [|? ?]]]]; try discriminate; now exists x0, x1, x2).
  destruct C22 as (x0 & x1 & x2 & EC2). assert (FX2 : flr x2 (B2R x2)).
  { rewrite EC2 in c2F. unfold FloatQRProofs.lfin in c2F. rewrite Forall_forall in c2F. split; [apply c2F; cbn; tauto|reflexivity]. }
  assert (ZX2 : vz (pad c2) = B2R x2) by (rewrite EC2; reflexivity).
  assert (LX2 : Rabs (B2R x2) <= 1.1 * Y). { pose proof (comp_le (pad c2)) as (_ & _ & K). rewrite ZX2 in K. lra. }
  destruct (last_any x2 (B2R x2) FX2 ltac:(lra)) as (ax2 & d2 & nz & s2 & rd & P21 & P22 & (y2 & ys2 & P23 & P24 & P25) & P26 & P27).
  set (w2 := mkV3 1 0 0). assert (P28 : gok 2 w2 (- s2)).
  { split; [unfold w2; ru_spec; ring|]. split; [lra|]. intros j J. destruct j as [|[|[|j]]]; try reflexivity; lia. }
  set (S3 := gmat 2 w2 (- s2)) in *. assert (O3 : orthogonal S3) by (apply gmat_orthogonal; [lia|assumption]).
  assert (F3 : forall x y z, mv S3 (mkV3 x y z) = mkV3 x y (s2 * z)).
  { intros x y z. unfold S3. rewrite gmat_put by (assumption || lia). cbn [put_vec sub_vec vx vy vz]. unfold w2, refl. apply V3_eq; ru_spec; ring. }
  assert (F30 : forall x y, mv S3 (mkV3 x y 0) = mkV3 x y 0) by (intros x y; rewrite F3; now rewrite Rmult_0_r).
  exists (mm (mm S1 S2) S3). assert (WT : forall X, mv (mtr (mm (mm S1 S2) S3)) X = mv S3 (mv S2 (mv S1 X))).
  { intros X. rewrite !mtr_mm, !mv_mm. unfold S1, S2, S3. rewrite !gmat_tr. reflexivity. }
  split; [repeat apply orthogonal_mm; assumption|]. cbv zeta.
  assert (P21' : reflection_axis_mut (skipn 2 c2) = ([ax2], d2, nz)) by (rewrite EC2; exact P21).
  rewrite (qr_unfold2 a b c ax0 ax1 [ax2] d0 d1 d2 nz P01 P11 P21'). fold b1 c1 c2. set (row := fun (i : nat) ax (d : F) => on_rows_from i (reflect_with_sign ax (o_signum d))) in *.
  change (row 1%nat ax1 d1 c1) with c2 in *. change (row 0%nat ax0 d0 b) with b1 in *.
  assert (Lb : length (firstn 1 b1) = 1%nat) by (rewrite firstn_length; lia). assert (Lc : length (firstn 2 c2) = 2%nat) by (rewrite firstn_length; lia).
  rewrite (qr_q_unfold 53 1024 f64_prec f64_emax fsin fcos ax0 ax1 [ax2] (firstn 1 b1) (firstn 2 c2) d0 d1 d2 Lb Lc). fold row.
  destruct (unit_lists 53 1024 f64_prec f64_emax fsin fcos) as (U1 & U2 & U3 & V1 & V2 & V3).
  assert (LU : vlen (mkV3 1 0 0) = 1 /\ vlen (mkV3 0 1 0) = 1 /\ vlen (mkV3 0 0 1) = 1).
  { repeat split; unfold vlen; (transitivity (sqrt 1); [f_equal; ru_spec; ring|apply sqrt_1]). }
  destruct LU as (LU0 & LU1 & LU2). pose proof tiny1 as T1. assert (B17 : 64 * 2 <= big).
  { replace (64 * 2) with (b2 7) by (simpl; lra). apply bpow_le. lia. }
  set (z := (o_zero : F)) in *. set (o := (o_one : F)) in *.
  assert (u5 : 5000 * u <= 1) by lra. assert (uu : 5000 * (u * u) <= u) by nra.
  assert (STEP0 : forall l v e, qr_col l v e -> vlen v = 1 -> 0 <= e <= 0.25 -> qr_col (row 0%nat ax0 d0 l) (mv S1 v) (534 * u * (1 + e) + e)).
  { intros l v e (Ll & Lf & Ld) Lv Le. pose proof (vdist_len (pad l) v) as (_ & K). destruct (step_app 53 1024 f64_prec f64_emax fsin fcos P14' E17' 0 ax0 w0 (o_signum d0) s0 l (1 + e)) as (X1 & X2 & X3); try assumption; try lia; try lra.
    split; [exact X1|]. split; [exact X2|]. pose proof (vdist_triangle (pad (row 0%nat ax0 d0 l)) (mv S1 (pad l)) (mv S1 v)) as T. rewrite (orth_dist S1) in T by exact O1.
    change (on_rows_from 0 (reflect_with_sign ax0 (o_signum d0)) l) with (row 0%nat ax0 d0 l) in X3. fold S1 in X3. lra. }
  assert (STEP1 : forall l v e, qr_col l v e -> vlen v = 1 -> 0 <= e <= 0.25 -> qr_col (row 1%nat ax1 d1 l) (mv S2 v) (534 * u * (1 + e) + e)).
  { intros l v e (Ll & Lf & Ld) Lv Le. pose proof (vdist_len (pad l) v) as (_ & K). destruct (step_app 53 1024 f64_prec f64_emax fsin fcos P14' E17' 1 ax1 w1 (o_signum d1) s1 l (1 + e)) as (X1 & X2 & X3); try assumption; try lia; try lra.
    split; [exact X1|]. split; [exact X2|]. pose proof (vdist_triangle (pad (row 1%nat ax1 d1 l)) (mv S2 (pad l)) (mv S2 v)) as T. rewrite (orth_dist S2) in T by exact O2.
    change (on_rows_from 1 (reflect_with_sign ax1 (o_signum d1)) l) with (row 1%nat ax1 d1 l) in X3. fold S2 in X3. lra. }
  assert (Q0 : qr_col [o; z; z] (mkV3 1 0 0) 0) by (split; [reflexivity|]; split; [exact U1|]; rewrite V1, vdist_0; apply Rle_refl).
  assert (Q1 : qr_col [z; o; z] (mkV3 0 1 0) 0) by (split; [reflexivity|]; split; [exact U2|]; rewrite V2, vdist_0; apply Rle_refl).
  assert (Q2 : qr_col (row 2%nat [ax2] d2 [z; z; o]) (mv S3 (mkV3 0 0 1)) (534 * u)).
  { assert (ER : row 2%nat [ax2] d2 [z; z; o] = [z; z; y2]) by (unfold row, on_rows_from; cbn [firstn skipn]; rewrite P23; reflexivity).
    rewrite ER, F3, Rmult_1_r. destruct (fl_zero' 53 1024 f64_prec f64_emax fsin fcos) as (Z1 & Z2).
    split; [reflexivity|]. split; [repeat (apply Forall_cons; [exact Z1 || exact (proj1 P24)|]); apply Forall_nil|].
    replace (pad [z; z; y2]) with (mkV3 0 0 ys2); [rewrite axis_dist2; exact P25|]. unfold FloatQRProofs.pad, FloatQRProofs.e_. cbn [nth]. unfold z. rewrite Z2. destruct P24 as (_ & ->). reflexivity. }
  assert (WEAK : forall l v e e', qr_col l v e -> e <= e' -> qr_col l v e') by (intros l v e e' (X1 & X2 & X3) L; split; [exact X1|]; split; [exact X2|lra]).
  apply (STEP0 _ _ 0) in Q0; [|assumption|lra].
  apply (STEP1 _ _ 0) in Q1; [|assumption|lra]. apply (WEAK _ _ _ (534 * u)) in Q1; [|lra]. apply (STEP0 _ _ (534 * u)) in Q1; [|rewrite orthogonal_len; assumption|lra].
  apply (STEP1 _ _ (534 * u)) in Q2; [|rewrite orthogonal_len; assumption|lra].
  apply (WEAK _ _ _ (1125.1 * u)) in Q2; [|lra]. apply (STEP0 _ _ (1125.1 * u)) in Q2; [|rewrite !orthogonal_len; assumption|lra].
  split; [|split; [|split]].
  - apply qr_col_nth. cbn [nth]. replace (mcol0 (mm (mm S1 S2) S3)) with (mv S1 (mkV3 1 0 0)); [apply (WEAK _ _ _ _ Q0); lra|].
    rewrite mcol0_mv, !mv_mm, F30, F2. reflexivity.
  - apply qr_col_nth. cbn [nth]. replace (mcol1 (mm (mm S1 S2) S3)) with (mv S1 (mv S2 (mkV3 0 1 0))); [apply (WEAK _ _ _ _ Q1); lra|].
    rewrite mcol1_mv, !mv_mm, F30. reflexivity.
  - apply qr_col_nth. cbn [nth]. replace (mcol2 (mm (mm S1 S2) S3)) with (mv S1 (mv S2 (mv S3 (mkV3 0 0 1)))); [apply (WEAK _ _ _ _ Q2); lra|].
    rewrite mcol2_mv, !mv_mm. reflexivity.
  - destruct P08 as (r0 & G0 & H0 & _). destruct P18 as (r1 & G1 & H1 & _).
    destruct (fl_zero' 53 1024 f64_prec f64_emax fsin fcos) as (Z1 & Z2). rewrite !WT, P07, F2, F30.
    assert (R0 : fcol0 53 1024 (qr_r (mkQR [ax0; firstn 1 b1 ++ ax1; firstn 2 c2 ++ [ax2]] [d0; d1; d2])) = [o_abs d0; z; z]) by reflexivity.
    assert (R1 : fcol1 53 1024 (qr_r (mkQR [ax0; firstn 1 b1 ++ ax1; firstn 2 c2 ++ [ax2]] [d0; d1; d2])) = [nth 0 b1 z; o_abs d1; z]).
    { clearbody b1. destruct b1 as [|x [|y [|t [|t2 b1]]]]; try discriminate. reflexivity. }
    assert (R2 : fcol2 53 1024 (qr_r (mkQR [ax0; firstn 1 b1 ++ ax1; firstn 2 c2 ++ [ax2]] [d0; d1; d2])) = [x0; x1; o_abs d2]) by (rewrite EC2; reflexivity).
    rewrite R0, R1, R2.
    pose proof (nth_fin 53 1024 f64_prec f64_emax fsin fcos b1 0 b1F) as (K1 & _).
    assert (K2 : is_finite x0 = true /\ is_finite x1 = true). { rewrite EC2 in c2F. unfold FloatQRProofs.lfin in c2F. rewrite Forall_forall in c2F. split; apply c2F; cbn; tauto. } destruct K2 as (K2 & K3).
    assert (PD : forall n r, 0 < n -> Rabs (r - n) <= 4 * u * n -> 0 < r).
    { intros n r Hn Hr. apply Rabs_le_inv in Hr. assert (4 * u * n <= 0.5 * n) by nra. lra. }
    assert (un1 : u * n1 <= 1.01 * (u * Y)) by (replace (1.01 * (u * Y)) with (u * (1.01 * Y)) by ring; apply Rmult_le_compat_l; lra).
    assert (un0 : u * vlen A <= u * Y) by (apply Rmult_le_compat_l; lra).
    assert (un2 : u * Rabs (B2R x2) <= 1.1 * (u * Y)) by (replace (1.1 * (u * Y)) with (u * (1.1 * Y)) by ring; apply Rmult_le_compat_l; lra).
    split; [|split; [|split; [|split; [|split; [|split]]]]].
    + split; [reflexivity|]. split; [unfold FloatQRProofs.lfin; repeat (apply Forall_cons; [assumption || apply G0|]); apply Forall_nil|].
      replace (pad [o_abs d0; z; z]) with (mkV3 r0 0 0); [rewrite axis_dist; lra|]. unfold FloatQRProofs.pad, FloatQRProofs.e_. cbn [nth]. unfold z. rewrite Z2. destruct G0 as (_ & ->). reflexivity.
    + split; [reflexivity|]. split; [unfold FloatQRProofs.lfin; repeat (apply Forall_cons; [assumption || apply G1|]); apply Forall_nil|].
      assert (PE : pad [nth 0 b1 z; o_abs d1; z] = mkV3 (e_ b1 0) r1 0).
      { unfold FloatQRProofs.pad, FloatQRProofs.e_. cbn [nth]. unfold z. rewrite Z2. destruct G1 as (_ & ->). reflexivity. }
      rewrite PE. pose proof (vdist_triangle (mkV3 (e_ b1 0) r1 0) (mkV3 (e_ b1 0) n1 0) (mv S3 (mv S2 (mv S1 B)))) as T. rewrite axis_dist1 in T.
      pose proof (orth_dist S3 (mkV3 (e_ b1 0) n1 0) (mv S2 (mv S1 B)) O3) as T2. rewrite F30, (vdist_sym (mkV3 (e_ b1 0) n1 0) (mv S2 _)) in T2. lra.
    + split; [reflexivity|]. split; [unfold FloatQRProofs.lfin; repeat (apply Forall_cons; [assumption || apply (proj1 P26)|]); apply Forall_nil|].
      assert (PE : pad [x0; x1; o_abs d2] = mkV3 (B2R x0) (B2R x1) rd).
      { unfold FloatQRProofs.pad, FloatQRProofs.e_. cbn [nth]. destruct P26 as (_ & ->). reflexivity. }
      assert (PC2 : pad c2 = mkV3 (B2R x0) (B2R x1) (B2R x2)) by (rewrite EC2; reflexivity).
      rewrite PE. pose proof (vdist_triangle (mkV3 (B2R x0) (B2R x1) rd) (mv S3 (pad c2)) (mv S3 (mv S2 (mv S1 C)))) as T.
      rewrite (orth_dist S3) in T by exact O3. rewrite PC2, F3 in T. rewrite <- PC2 in T. rewrite axis_dist2 in T. lra.
    + change (0 < B2R (o_abs d0)). destruct G0 as (_ & ->). apply (PD (vlen A)); assumption.
    + change (0 < B2R (o_abs d1)). destruct G1 as (_ & ->). apply (PD n1); [lra|assumption].
    + change (0 <= B2R (o_abs d2)). change (0 <= B2R (Babs d2)). rewrite B2R_Babs. apply Rabs_pos.
    + repeat split.
Qed.
End QR64.
