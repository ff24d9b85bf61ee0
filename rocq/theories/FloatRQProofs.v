(** * FloatRQProofs.v - rounding error of the RQ decomposition (C108) *)

From Coq Require Import ZArith Reals List Bool Lra Lia Psatz.
From Flocq Require Import Core BinarySingleNaN.
From Verif Require Import Scalar Linalg Householder Perspective Extrinsics Camera Spec SpecFloatErr RealBase VecLemmas FloatBase FloatRound FloatErrProofs FloatApprox FloatRigidProofs
  FloatDirProofs FloatViewProofs QRProofs JacProofs FloatIsectProofs4 FloatQRProofs FloatQRProofs2 RQPerturbProofs.
Import ListNotations.
Local Open Scope R_scope.

(** three vectors with a determinant that is not small are independent *)
Lemma indep_det th A B C : 0 < th -> 0 < vlen A -> 0 < vlen B -> 0 < vlen C -> th * (vlen A * vlen B * vlen C) <= Rabs (vdot A (vcross B C)) -> indep (0.577 * th) A B C.
Proof.
  intros T A0 B0 C0 D p q r. cbv zeta. set (v := vadd (vadd (vscl p A) (vscl q B)) (vscl r C)). set (dt := vdot A (vcross B C)) in *.
  assert (KEY : forall k X Y Z, vdot v (vcross Y Z) = k * dt \/ vdot v (vcross Y Z) = - (k * dt) -> vlen X * vlen Y * vlen Z = vlen A * vlen B * vlen C -> 0 < vlen X -> 0 < vlen Y -> 0 < vlen Z ->
    th * th * (k * k * vdot X X) <= vdot v v).
  { intros k X Y Z EQ L X0 Y0 Z0. assert (E1 : Rabs k * Rabs dt <= vlen v * (vlen Y * vlen Z)).
    { replace (Rabs k * Rabs dt) with (Rabs (vdot v (vcross Y Z))) by (destruct EQ as [-> | ->]; rewrite ?Rabs_Ropp, Rabs_mult; reflexivity).
      eapply Rle_trans; [apply cauchy_schwarz|]. apply Rmult_le_compat_l; [apply vlen_nonneg|]. apply vlen_vcross. }
    rewrite <- L in D. assert (E2 : th * (Rabs k * vlen X) <= vlen v).
    { apply Rmult_le_reg_r with (vlen Y * vlen Z); [nra|]. eapply Rle_trans; [|exact E1]. pose proof (Rmult_le_compat_l _ _ _ (Rabs_pos k) D). lra. }
    assert (X1 : 0 <= th * (Rabs k * vlen X)) by (apply Rmult_le_pos; [lra|apply Rmult_le_pos; [apply Rabs_pos|lra]]).
    pose proof (Rmult_le_compat _ _ _ _ X1 X1 E2 E2) as Q. rewrite <- (vlen_sq v), <- (vlen_sq X).
    replace (k * k) with (Rabs k * Rabs k) by (rewrite <- Rabs_mult; apply Rabs_pos_eq, Rle_0_sqr). lra. }
  pose proof (KEY p A B C) as K1. pose proof (KEY q B A C) as K2. pose proof (KEY r C A B) as K3. clear KEY.
  specialize (K1 ltac:(left; unfold v, dt; vring) eq_refl A0 B0 C0). specialize (K2 ltac:(right; unfold v, dt; vring) ltac:(ring) B0 A0 C0). specialize (K3 ltac:(left; unfold v, dt; vring) ltac:(ring) C0 A0 B0).
  pose proof (vdot_self_nonneg v). nra.
Qed.

Section RQ.
Variables (prec emax : Z) (Hp : Prec_gt_0 prec) (He : Prec_lt_emax prec emax).
Variables fsin fcos : binary_float prec emax -> binary_float prec emax.
Local Notation F := (binary_float prec emax).
Local Hint Extern 0 (Ops (binary_float prec emax)) =>
  exact (B_ops prec emax Hp He fsin fcos) : typeclass_instances.
Local Notation u := (bpow radix2 (- prec)).
Local Notation big := (bpow radix2 emax).
Local Notation tiny := (bpow radix2 (2 - emax)).
Local Notation flr := (fl prec emax).
Hypotheses (P14 : (14 <= prec)%Z) (E17 : (17 <= emax)%Z).
Local Notation pad := (pad prec emax Hp He fsin fcos).
Local Notation lfin := (lfin prec emax).

Lemma mul_1_l (x : F) a : flr x a -> flr (o_mul o_one x) a.
Proof.
  intros X. pose proof (fl_mul prec emax Hp He fsin fcos _ _ _ _ (fl_one prec emax Hp He fsin fcos) X) as H.
  rewrite Rmult_1_l in H. rewrite rnd_id in H by (assumption || exact (fl_fmt _ _ _ _ X)). apply H.
  exact (fl_lt_big _ _ _ _ X).
Qed.
Lemma mul_0_r (x z : F) a : flr z 0 -> flr x a -> flr (o_mul x z) 0.
Proof.
  intros Z X. pose proof (fl_mul prec emax Hp He fsin fcos _ _ _ _ X Z) as H. rewrite Rmult_0_r in H.
  rewrite rnd_id in H by (assumption || apply fmt_0). apply H. rewrite Rabs_R0. apply bpow_gt_0.
Qed.
(** the floats of [m] are finite and have the values [w] *)
Definition mfl (m : M33 F) (w : M33 R) : Prop :=
  (flr (m00 m) (m00 w) /\ flr (m01 m) (m01 w) /\ flr (m02 m) (m02 w)) /\ (flr (m10 m) (m10 w) /\ flr (m11 m) (m11 w) /\ flr (m12 m) (m12 w)) /\
  (flr (m20 m) (m20 w) /\ flr (m21 m) (m21 w) /\ flr (m22 m) (m22 w)).
Definition perm : M33 F := mkM33 o_zero o_zero o_one o_zero o_one o_zero o_one o_zero o_zero.
Definition rows_rev (w : M33 R) : M33 R := mkM33 (m20 w) (m21 w) (m22 w) (m10 w) (m11 w) (m12 w) (m00 w) (m01 w) (m02 w).
Definition cols_rev (w : M33 R) : M33 R := mkM33 (m02 w) (m01 w) (m00 w) (m12 w) (m11 w) (m10 w) (m22 w) (m21 w) (m20 w).
Lemma sel3 (x y z : F) a b c : flr x a -> flr y b -> flr z c ->
  flr (o_add (o_add (o_mul o_one x) (o_mul o_zero y)) (o_mul o_zero z)) a /\ flr (o_add (o_add (o_mul o_zero x) (o_mul o_one y)) (o_mul o_zero z)) b /\
  flr (o_add (o_add (o_mul o_zero x) (o_mul o_zero y)) (o_mul o_one z)) c.
Proof.
  intros X Y Z. pose proof (fl_zero' prec emax Hp He fsin fcos) as ZZ.
  pose proof (mul_1_l x a X) as X1. pose proof (mul_1_l y b Y) as Y1. pose proof (mul_1_l z c Z) as Z1.
  pose proof (mul_0_l prec emax Hp He fsin fcos x o_zero a ZZ X) as X0. pose proof (mul_0_l prec emax Hp He fsin fcos y o_zero b ZZ Y) as Y0. pose proof (mul_0_l prec emax Hp He fsin fcos z o_zero c ZZ Z) as Z0.
  split; [|split].
  - apply add_0_r; [exact Z0|]. apply add_0_r; [exact Y0|exact X1].
  - apply add_0_r; [exact Z0|]. apply add_0_l; [exact X0|exact Y1].
  - apply add_0_l; [|exact Z1]. apply add_0_l; [exact X0|exact Y0].
Qed.
Lemma sel3r (x y z : F) a b c : flr x a -> flr y b -> flr z c ->
  flr (o_add (o_add (o_mul x o_one) (o_mul y o_zero)) (o_mul z o_zero)) a /\ flr (o_add (o_add (o_mul x o_zero) (o_mul y o_one)) (o_mul z o_zero)) b /\
  flr (o_add (o_add (o_mul x o_zero) (o_mul y o_zero)) (o_mul z o_one)) c.
Proof.
  intros X Y Z. pose proof (fl_zero' prec emax Hp He fsin fcos) as ZZ.
  pose proof (mul_1_r prec emax Hp He fsin fcos x a X) as X1. pose proof (mul_1_r prec emax Hp He fsin fcos y b Y) as Y1. pose proof (mul_1_r prec emax Hp He fsin fcos z c Z) as Z1.
  pose proof (mul_0_r x o_zero a ZZ X) as X0. pose proof (mul_0_r y o_zero b ZZ Y) as Y0. pose proof (mul_0_r z o_zero c ZZ Z) as Z0.
  split; [|split].
  - apply add_0_r; [exact Z0|]. apply add_0_r; [exact Y0|exact X1].
  - apply add_0_r; [exact Z0|]. apply add_0_l; [exact X0|exact Y1].
  - apply add_0_l; [|exact Z1]. apply add_0_l; [exact X0|exact Y0].
Qed.
Lemma perm_left m w : mfl m w -> mfl (m33_mul perm m) (rows_rev w).
Proof.
  intros ((A & B & C) & (D & E & G) & (H & I & J)).
  destruct (sel3 _ _ _ _ _ _ A D H) as (K1 & K2 & K3). destruct (sel3 _ _ _ _ _ _ B E I) as (L1 & L2 & L3). destruct (sel3 _ _ _ _ _ _ C G J) as (M1 & M2 & M3).
  split; [|split]; (split; [|split]); assumption.
Qed.
Lemma perm_right m w : mfl m w -> mfl (m33_mul m perm) (cols_rev w).
Proof.
  intros ((A & B & C) & (D & E & G) & (H & I & J)).
  destruct (sel3r _ _ _ _ _ _ A B C) as (K1 & K2 & K3). destruct (sel3r _ _ _ _ _ _ D E G) as (L1 & L2 & L3). destruct (sel3r _ _ _ _ _ _ H I J) as (M1 & M2 & M3).
  split; [|split]; (split; [|split]); assumption.
Qed.
Lemma mfl_tr m w : mfl m w -> mfl (m33_transpose m) (mtr w).
Proof. intros ((A & B & C) & (D & E & G) & (H & I & J)). split; [|split]; (split; [|split]); assumption. Qed.
Definition mre (m : M33 F) : M33 R := mkM33 (B2R (m00 m)) (B2R (m01 m)) (B2R (m02 m)) (B2R (m10 m)) (B2R (m11 m)) (B2R (m12 m)) (B2R (m20 m)) (B2R (m21 m)) (B2R (m22 m)).
Lemma mfl_cols m : lfin (fcol0 prec emax m) -> lfin (fcol1 prec emax m) -> lfin (fcol2 prec emax m) -> mfl m (mre m).
Proof.
  unfold FloatQRProofs.lfin, fcol0, fcol1, fcol2. intros A B C.
  inversion A as [|? ? A1 A']; inversion A' as [|? ? A2 A'']; inversion A'' as [|? ? A3 _]; subst.
  inversion B as [|? ? B1 B']; inversion B' as [|? ? B2 B'']; inversion B'' as [|? ? B3 _]; subst.
  inversion C as [|? ? C1 C']; inversion C' as [|? ? C2 C'']; inversion C'' as [|? ? C3 _]; subst.
  split; [|split]; (split; [|split]); (split; [assumption|reflexivity]).
Qed.
Lemma mfl_pads m w : mfl m w -> pad (fcol0 prec emax m) = mcol0 w /\ pad (fcol1 prec emax m) = mcol1 w /\ pad (fcol2 prec emax m) = mcol2 w /\
  lfin (fcol0 prec emax m) /\ lfin (fcol1 prec emax m) /\ lfin (fcol2 prec emax m).
Proof.
  intros (((A & A') & (B & B') & (C & C')) & ((D & D') & (E & E') & (G & G')) & ((H & H') & (I & I') & (J & J'))).
  unfold FloatQRProofs.pad, FloatQRProofs.e_, fcol0, fcol1, fcol2, mcol0, mcol1, mcol2. cbn [nth]. rewrite A', B', C', D', E', G', H', I', J'.
  repeat split; unfold FloatQRProofs.lfin; repeat (apply Forall_cons; [assumption|]); apply Forall_nil.
Qed.

(** the RQ decomposition: an orthogonal matrix [W] (its columns are the rows of the second factor,
    bottom row first) and the errors of both factors *)
Lemma rq_app (A : M33 F) w lam E : mfl A w -> (0 <= E)%Z -> (2 * E + 6 <= emax)%Z -> 5000 * u <= lam -> indep lam (mrow2 w) (mrow1 w) (mrow0 w) ->
  (forall x, In x [mrow2 w; mrow1 w; mrow0 w] -> 2 * bpow radix2 (- E) <= lam * vlen x /\ 2 * vlen x <= bpow radix2 E) ->
  exists W K Q k q, rq A = (K, Q) /\ mfl K k /\ mfl Q q /\ orthogonal W /\
    vdist (mrow2 q) (mcol0 W) <= 1780 * u /\ vdist (mrow1 q) (mcol1 W) <= 1780 * u /\ vdist (mrow0 q) (mcol2 W) <= 1780 * u /\
    vdist (mkV3 (m22 k) 0 0) (mv (mtr W) (mrow2 w)) <= 1131 * u * vlen (mrow2 w) /\
    vdist (mkV3 (m12 k) (m11 k) 0) (mv (mtr W) (mrow1 w)) <= 1131 * u * vlen (mrow1 w) /\
    vdist (mkV3 (m02 k) (m01 k) (m00 k)) (mv (mtr W) (mrow0 w)) <= 1131 * u * vlen (mrow0 w) /\
    0 < m00 k /\ 0 < m11 k /\ 0 < m22 k.
Proof.
  intros HA E0 E6 UL IND RNG.
  pose proof (mfl_tr _ _ (perm_left _ _ HA)) as HT. assert (RQ : rq A = let d := qr_new (cols_of_m33 (m33_transpose (m33_mul perm A))) in
    (m33_mul (m33_mul perm (m33_transpose (qr_r d))) perm, m33_mul perm (m33_transpose (qr_q d)))) by reflexivity.
  set (T := m33_transpose (m33_mul perm A)) in *. clearbody T.
  destruct (mfl_pads _ _ HT) as (PA & PB & PC & FA & FB & FC).
  change (mcol0 (mtr (rows_rev w))) with (mrow2 w) in PA. change (mcol1 (mtr (rows_rev w))) with (mrow1 w) in PB. change (mcol2 (mtr (rows_rev w))) with (mrow0 w) in PC.
  set (a := fcol0 prec emax T) in *. set (b := fcol1 prec emax T) in *. set (c := fcol2 prec emax T) in *.
  assert (QRH : indep lam (pad a) (pad b) (pad c)) by (rewrite PA, PB, PC; exact IND).
  assert (QRR : forall x, In x [a; b; c] -> 2 * bpow radix2 (- E) <= lam * vlen (pad x) /\ 2 * vlen (pad x) <= bpow radix2 E).
  { intros x [<-|[<-|[<-|[]]]]; [rewrite PA|rewrite PB|rewrite PC]; apply RNG; cbn; tauto. }
  destruct (qr_app prec emax Hp He fsin fcos P14 E17 a b c lam E eq_refl eq_refl eq_refl FA FB FC E0 E6 UL QRH QRR) as (W & OW & QA & QB & QC & RA & RB & RC & D0 & D1 & D2 & Z0 & Z1 & Z2).
  rewrite PA in RA. rewrite PB in RB. rewrite PC in RC.
  replace (cols_of_m33 T) with [a; b; c] in RQ by reflexivity.
  set (d := qr_new [a; b; c]) in *. clearbody d. cbv zeta in RQ. set (QQ := qr_q d) in *. set (RR := qr_r d) in *. clearbody QQ RR.
  assert (HQ : mfl QQ (mre QQ)) by (apply mfl_cols; [apply QA|apply QB|apply QC]).
  assert (HR : mfl RR (mre RR)) by (apply mfl_cols; [apply RA|apply RB|apply RC]).
  exists W, (m33_mul (m33_mul perm (m33_transpose RR)) perm), (m33_mul perm (m33_transpose QQ)),
    (cols_rev (rows_rev (mtr (mre RR)))), (rows_rev (mtr (mre QQ))).
  split; [exact RQ|]. split; [apply perm_right, perm_left, mfl_tr; exact HR|]. split; [apply perm_left, mfl_tr; exact HQ|]. split; [exact OW|].
  destruct (fl_zero' prec emax Hp He fsin fcos) as (_ & ZV).
  destruct QA as (_ & _ & QA), QB as (_ & _ & QB), QC as (_ & _ & QC), RA as (_ & _ & RA), RB as (_ & _ & RB), RC as (_ & _ & RC).
  unfold FloatQRProofs.pad, FloatQRProofs.e_, fcol0, fcol1, fcol2 in QA, QB, QC, RA, RB, RC. cbn [nth] in QA, QB, QC, RA, RB, RC. rewrite Z0, Z1, ZV in RA. rewrite Z2, ZV in RB.
  split; [exact QA|]. split; [exact QB|]. split; [exact QC|]. split; [exact RA|]. split; [exact RB|]. split; [exact RC|].
  split; [exact D2|]. split; [exact D1|exact D0].
Qed.
(** no sign of the intrinsics is changed *)
Lemma flip_none (K Q : M33 F) k : mfl K k -> 0 < m00 k -> 0 < m11 k -> 0 < m22 k -> flip_signs K Q = Some (K, Q).
Proof.
  intros ((A & B & C) & (D & E & G) & (H & I & J)) P0 P1 P2. pose proof (fl_zero' prec emax Hp He fsin fcos) as Z.
  assert (N : forall x r, flr x r -> 0 < r -> o_ltb x o_zero = false).
  { intros x r X R0. pose proof (fl_ltb prec emax Hp He fsin fcos _ _ _ _ X Z) as L. destruct (o_ltb x o_zero); [|reflexivity]. assert (r < 0) by now apply L. lra. }
  pose proof (N _ _ A P0) as N0. pose proof (N _ _ E P1) as N1. pose proof (N _ _ J P2) as N2.
  clear N A B C D E G H I J. destruct K as [a b c d e f g h i]. cbn [m00 m11 m22] in N0, N1, N2. unfold flip_signs.
  cbn [for_range fst snd m33_get m33_row v3_get bind m00 m01 m02 m10 m11 m12 m20 m21 m22 vx vy vz].
  rewrite N0. cbn [bind fst snd m11 m22]. rewrite N1. cbn [bind fst snd m11 m22]. rewrite N2. reflexivity.
Qed.
End RQ.
