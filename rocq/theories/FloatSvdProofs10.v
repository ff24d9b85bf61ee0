(** * FloatSvdProofs10.v - the symmetric eigenproblem in double precision (C110) *)

From Coq Require Import ZArith Reals List Bool Lra Lia Psatz.
From Flocq Require Import Core BinarySingleNaN.
From Verif Require Import Scalar Linalg Householder RayIntersection SymEigen Spec SpecGeom SpecIsect SpecFloatErr SpecFloatIsect SpecSvd RealBase VecLemmas ExtrinsicsProofs IsectBase IsectProofs SpectralProofs TriProofs FloatBase FloatRound FloatErrProofs FloatApprox FloatDirProofs FloatIsectProofs4 FloatQRProofs QRProofs
  SymEigenProofs SymEigenProofs2 SymEigenProofs3 SymEigenProofs4 SymEigenProofs6 FloatSvdProofs FloatSvdProofs2 FloatSvdProofs3 FloatSvdProofs4 FloatSvdProofs5 FloatSvdProofs6 FloatSvdProofs7 FloatSvdProofs8 FloatSvdProofs9.
Import ListNotations.
Local Open Scope R_scope.

Section F64.
Variables gsin gcos : binary_float 53 1024 -> binary_float 53 1024.
Local Notation F := (binary_float 53 1024).
Local Hint Extern 0 (Ops (binary_float 53 1024)) => exact (B_ops 53 1024 f64_prec f64_emax gsin gcos) : typeclass_instances.
Local Notation flr := (fl 53 1024).
Local Notation u := (bpow radix2 (- (53))).
Local Notation tiny := (bpow radix2 (2 - 1024)).
Local Notation big := (bpow radix2 1024).
Local Notation rnd := (FloatRound.rnd 53 1024).
Local Notation Z9 := (mkM33 0 0 0 0 0 0 0 0 0).

(** ** Products of matrices *)
Definition rd3 (a b c d e f : R) : R := rnd (rnd (rnd (a * b) + rnd (c * d)) + rnd (e * f)).
Lemma rd3_comm a b c d e f : rd3 a b c d e f = rd3 b a d c f e.
Proof. unfold rd3. now rewrite (Rmult_comm a), (Rmult_comm c), (Rmult_comm e). Qed.
Lemma abs_mul_le a b A B : Rabs a <= A -> Rabs b <= B -> Rabs (a * b) <= A * B.
Proof. intros H1 H2. rewrite Rabs_mult. pose proof (Rabs_pos a). pose proof (Rabs_pos b). apply Rmult_le_compat; lra. Qed.
Lemma dot3_f (x p y q z r : F) a b c d e f A B : flr x a -> flr p b -> flr y c -> flr q d -> flr z e -> flr r f ->
  Rabs a <= A -> Rabs b <= B -> Rabs c <= A -> Rabs d <= B -> Rabs e <= A -> Rabs f <= B -> tiny <= A * B -> 4 * (A * B) < big ->
  flr (o_add (o_add (o_mul x p) (o_mul y q)) (o_mul z r)) (rd3 a b c d e f) /\ Rabs (rd3 a b c d e f - (a * b + c * d + e * f)) <= 9 * u * (A * B).
Proof.
  intros F1 F2 F3 F4 F5 F6 L1 L2 L3 L4 L5 L6 T BG. pose proof u64_le as U. pose proof (bpow_gt_0 radix2 (- (53))) as U0. pose proof (bpow_gt_0 radix2 (2 - 1024)) as T0.
  set (W := A * B) in *. assert (P1 : Rabs (a * b) <= W) by now apply abs_mul_le. assert (P2 : Rabs (c * d) <= W) by now apply abs_mul_le. assert (P3 : Rabs (e * f) <= W) by now apply abs_mul_le.
  assert (UW : u * W <= 1.12e-16 * W) by (apply Rmult_le_compat_r; lra). clearbody W. assert (UW0 : 0 <= u * W) by (apply Rmult_le_pos; lra).
  destruct (rnd_near 53 1024 f64_prec (a * b) W T P1) as (E1 & G1). destruct (rnd_near 53 1024 f64_prec (c * d) W T P2) as (E2 & G2). destruct (rnd_near 53 1024 f64_prec (e * f) W T P3) as (E3 & G3).
  pose proof (fl_mul 53 1024 f64_prec f64_emax gsin gcos _ _ _ _ F1 F2 ltac:(unfold FloatRound.big; lra)) as M1. pose proof (fl_mul 53 1024 f64_prec f64_emax gsin gcos _ _ _ _ F3 F4 ltac:(unfold FloatRound.big; lra)) as M2. pose proof (fl_mul 53 1024 f64_prec f64_emax gsin gcos _ _ _ _ F5 F6 ltac:(unfold FloatRound.big; lra)) as M3.
  unfold rd3. set (m1 := rnd (a * b)) in *. set (m2 := rnd (c * d)) in *. set (m3 := rnd (e * f)) in *. clearbody m1 m2 m3.
  assert (S1 : Rabs (m1 + m2) <= 2.01 * W) by (eapply Rle_trans; [apply Rabs_triang|]; lra).
  destruct (rnd_near 53 1024 f64_prec (m1 + m2) (2.01 * W) ltac:(lra) S1) as (E4 & G4). 
  pose proof (fl_add 53 1024 f64_prec f64_emax gsin gcos _ _ _ _ M1 M2 ltac:(unfold FloatRound.big; lra)) as M4. set (m4 := rnd (m1 + m2)) in *. clearbody m4.
  assert (S2 : Rabs (m4 + m3) <= 3.1 * W) by (eapply Rle_trans; [apply Rabs_triang|]; lra).
  destruct (rnd_near 53 1024 f64_prec (m4 + m3) (3.1 * W) ltac:(lra) S2) as (E5 & G5). 
  pose proof (fl_add 53 1024 f64_prec f64_emax gsin gcos _ _ _ _ M4 M3 ltac:(unfold FloatRound.big; lra)) as M5. set (m5 := rnd (m4 + m3)) in *. clearbody m5.
  split; [exact M5|]. apply Rabs_le_inv in E1, E2, E3, E4, E5. apply Rabs_le. lra.
Qed.
Lemma mfin_fl (m : M33 F) : mfin m -> flr (m00 m) (B2R (m00 m)) /\ flr (m01 m) (B2R (m01 m)) /\ flr (m02 m) (B2R (m02 m)) /\ flr (m10 m) (B2R (m10 m)) /\ flr (m11 m) (B2R (m11 m)) /\ flr (m12 m) (B2R (m12 m)) /\ flr (m20 m) (B2R (m20 m)) /\ flr (m21 m) (B2R (m21 m)) /\ flr (m22 m) (B2R (m22 m)).
Proof. unfold mfin, mat_near, near, mreal. cbn [m00 m01 m02 m10 m11 m12 m20 m21 m22]. intros H. repeat split; tauto. Qed.
Lemma entries_abs (m : M33 R) A : entries_le A m Z9 -> Rabs (m00 m) <= A /\ Rabs (m01 m) <= A /\ Rabs (m02 m) <= A /\ Rabs (m10 m) <= A /\ Rabs (m11 m) <= A /\ Rabs (m12 m) <= A /\ Rabs (m20 m) <= A /\ Rabs (m21 m) <= A /\ Rabs (m22 m) <= A.
Proof. unfold entries_le. cbn [m00 m01 m02 m10 m11 m12 m20 m21 m22]. now rewrite !Rminus_0_r. Qed.
Lemma prod_f (a b : M33 F) A B : mfin a -> mfin b -> entries_le A (mreal a) Z9 -> entries_le B (mreal b) Z9 -> tiny <= A * B -> 4 * (A * B) < big ->
  mfin (m33_mul a b) /\ entries_le (9 * u * (A * B)) (mreal (m33_mul a b)) (mm (mreal a) (mreal b)) /\
  mreal (m33_mul a b) = mkM33
    (rd3 (B2R (m00 a)) (B2R (m00 b)) (B2R (m01 a)) (B2R (m10 b)) (B2R (m02 a)) (B2R (m20 b))) (rd3 (B2R (m00 a)) (B2R (m01 b)) (B2R (m01 a)) (B2R (m11 b)) (B2R (m02 a)) (B2R (m21 b))) (rd3 (B2R (m00 a)) (B2R (m02 b)) (B2R (m01 a)) (B2R (m12 b)) (B2R (m02 a)) (B2R (m22 b)))
    (rd3 (B2R (m10 a)) (B2R (m00 b)) (B2R (m11 a)) (B2R (m10 b)) (B2R (m12 a)) (B2R (m20 b))) (rd3 (B2R (m10 a)) (B2R (m01 b)) (B2R (m11 a)) (B2R (m11 b)) (B2R (m12 a)) (B2R (m21 b))) (rd3 (B2R (m10 a)) (B2R (m02 b)) (B2R (m11 a)) (B2R (m12 b)) (B2R (m12 a)) (B2R (m22 b)))
    (rd3 (B2R (m20 a)) (B2R (m00 b)) (B2R (m21 a)) (B2R (m10 b)) (B2R (m22 a)) (B2R (m20 b))) (rd3 (B2R (m20 a)) (B2R (m01 b)) (B2R (m21 a)) (B2R (m11 b)) (B2R (m22 a)) (B2R (m21 b))) (rd3 (B2R (m20 a)) (B2R (m02 b)) (B2R (m21 a)) (B2R (m12 b)) (B2R (m22 a)) (B2R (m22 b))).
Proof.
  intros FA FB EA EB T BG. apply mfin_fl in FA, FB. apply entries_abs in EA, EB. unfold mreal in EA, EB. cbn [m00 m01 m02 m10 m11 m12 m20 m21 m22] in EA, EB.
  destruct a as [a0 a1 a2 a3 a4 a5 a6 a7 a8], b as [b0 b1 b2 b3 b4 b5 b6 b7 b8]. cbn [m00 m01 m02 m10 m11 m12 m20 m21 m22] in *.
  destruct FA as (FA0 & FA1 & FA2 & FA3 & FA4 & FA5 & FA6 & FA7 & FA8), FB as (FB0 & FB1 & FB2 & FB3 & FB4 & FB5 & FB6 & FB7 & FB8).
  destruct EA as (EA0 & EA1 & EA2 & EA3 & EA4 & EA5 & EA6 & EA7 & EA8), EB as (EB0 & EB1 & EB2 & EB3 & EB4 & EB5 & EB6 & EB7 & EB8).
  pose proof (dot3_f _ _ _ _ _ _ _ _ _ _ _ _ A B FA0 FB0 FA1 FB3 FA2 FB6 EA0 EB0 EA1 EB3 EA2 EB6 T BG) as ((D0 & V0) & H0).
  pose proof (dot3_f _ _ _ _ _ _ _ _ _ _ _ _ A B FA0 FB1 FA1 FB4 FA2 FB7 EA0 EB1 EA1 EB4 EA2 EB7 T BG) as ((D1 & V1) & H1).
  pose proof (dot3_f _ _ _ _ _ _ _ _ _ _ _ _ A B FA0 FB2 FA1 FB5 FA2 FB8 EA0 EB2 EA1 EB5 EA2 EB8 T BG) as ((D2 & V2) & H2).
  pose proof (dot3_f _ _ _ _ _ _ _ _ _ _ _ _ A B FA3 FB0 FA4 FB3 FA5 FB6 EA3 EB0 EA4 EB3 EA5 EB6 T BG) as ((D3 & V3') & H3).
  pose proof (dot3_f _ _ _ _ _ _ _ _ _ _ _ _ A B FA3 FB1 FA4 FB4 FA5 FB7 EA3 EB1 EA4 EB4 EA5 EB7 T BG) as ((D4 & V4) & H4).
  pose proof (dot3_f _ _ _ _ _ _ _ _ _ _ _ _ A B FA3 FB2 FA4 FB5 FA5 FB8 EA3 EB2 EA4 EB5 EA5 EB8 T BG) as ((D5 & V5) & H5).
  pose proof (dot3_f _ _ _ _ _ _ _ _ _ _ _ _ A B FA6 FB0 FA7 FB3 FA8 FB6 EA6 EB0 EA7 EB3 EA8 EB6 T BG) as ((D6 & V6) & H6).
  pose proof (dot3_f _ _ _ _ _ _ _ _ _ _ _ _ A B FA6 FB1 FA7 FB4 FA8 FB7 EA6 EB1 EA7 EB4 EA8 EB7 T BG) as ((D7 & V7) & H7).
  pose proof (dot3_f _ _ _ _ _ _ _ _ _ _ _ _ A B FA6 FB2 FA7 FB5 FA8 FB8 EA6 EB2 EA7 EB5 EA8 EB8 T BG) as ((D8 & V8) & H8).
  unfold m33_mul, mreal, mfin, mat_near. cbn [m00 m01 m02 m10 m11 m12 m20 m21 m22]. rewrite V0, V1, V2, V3', V4, V5, V6, V7, V8.
  split; [|split; [|reflexivity]].
  - cbn [mreal m00 m01 m02 m10 m11 m12 m20 m21 m22]. unfold near. rewrite V0, V1, V2, V3', V4, V5, V6, V7, V8, !Rminus_eq_0, Rabs_R0. repeat split; try assumption; lra.
  - unfold entries_le, mm, vdot, mrow0, mrow1, mrow2, mcol0, mcol1, mcol2. cbn [m00 m01 m02 m10 m11 m12 m20 m21 m22 vx vy vz]. repeat split; assumption.
Qed.
Lemma gram_f (m : M33 F) k : mfin m -> at_most k (mreal m) -> tiny <= k * k -> 4 * (k * k) < big ->
  let S := m33_mul (m33_transpose m) m in mfin S /\ mtr (mreal S) = mreal S /\ appr (mreal S) (mm (mtr (mreal m)) (mreal m)) (27 * u * (k * k)).
Proof.
  intros FM AM T BG S. pose proof (bnd_entries _ _ AM) as EM.
  assert (FT : mfin (m33_transpose m)) by (apply mfin_fl in FM; destruct m as [a0 a1 a2 a3 a4 a5 a6 a7 a8]; unfold mfin, mat_near, near, mreal, m33_transpose; cbn [m00 m01 m02 m10 m11 m12 m20 m21 m22] in *; rewrite !Rminus_eq_0, Rabs_R0; unfold fl in FM; repeat split; try tauto; lra).
  assert (ET : entries_le k (mreal (m33_transpose m)) Z9) by (unfold entries_le in *; destruct m as [a0 a1 a2 a3 a4 a5 a6 a7 a8]; unfold mreal, m33_transpose in *; cbn [m00 m01 m02 m10 m11 m12 m20 m21 m22] in *; repeat split; tauto).
  destruct (prod_f _ _ k k FT FM ET EM T BG) as (FS & ES & VS). split; [exact FS|]. split.
  - unfold S. rewrite VS. destruct m as [a0 a1 a2 a3 a4 a5 a6 a7 a8]. unfold mtr, m33_transpose. cbn [m00 m01 m02 m10 m11 m12 m20 m21 m22]. f_equal; apply rd3_comm.
  - apply entries_appr in ES. replace (mtr (mreal m)) with (mreal (m33_transpose m)) by (destruct m; reflexivity). eapply appr_le; [|exact ES]. lra.
Qed.

(** ** The largest entry *)
Lemma fold_f : forall (l : list F) mx c, Forall (fun x => is_finite x = true) l -> flr mx c ->
  exists c', flr (fold_left (fun mx e => let ae := o_abs e in if o_ltb mx ae then ae else mx) l mx) c' /\ c <= c' /\ Forall (fun x => Rabs (B2R x) <= c') l /\ (c' = c \/ Exists (fun x => c' = Rabs (B2R x)) l).
Proof.
  induction l as [|x l IH]; intros mx c FL FM.
  - exists c. cbn [fold_left]. split; [exact FM|]. split; [lra|]. split; [constructor|now left].
  - inversion FL as [|? ? FX FL']. subst. cbn [fold_left]. pose proof (fl_abs 53 1024 f64_prec f64_emax gsin gcos _ _ (fin_fl _ FX)) as FA.
    pose proof (fl_ltb 53 1024 f64_prec f64_emax gsin gcos _ _ _ _ FM FA) as LT. cbv zeta. destruct (o_ltb mx (o_abs x)) eqn:E.
    + destruct LT as (LT & _). specialize (LT eq_refl). destruct (IH _ _ FL' FA) as (c' & H1 & H2 & H3 & H4). exists c'. split; [exact H1|]. split; [lra|]. split; [constructor; assumption|].
      destruct H4 as [->|H4]; right; [now left|now right].
    + assert (GE : Rabs (B2R x) <= c) by (destruct (Rle_lt_dec (Rabs (B2R x)) c) as [|L]; [assumption|]; apply LT in L; discriminate).
      destruct (IH _ _ FL' FM) as (c' & H1 & H2 & H3 & H4). exists c'. split; [exact H1|]. split; [lra|]. split; [constructor; [lra|assumption]|]. destruct H4 as [->|H4]; [now left|right; now right].
Qed.
Lemma camax_f (m : M33 F) B : mfin m -> entries_le B (mreal m) Z9 -> exists c, flr (camax m) c /\ entries_le c (mreal m) Z9 /\ 0 <= c <= B.
Proof.
  intros FM EB. apply mfin_fl in FM. apply entries_abs in EB. unfold camax, mreal, entries_le in *. cbn [m00 m01 m02 m10 m11 m12 m20 m21 m22] in *. rewrite !Rminus_0_r. unfold fl in FM.
  destruct (fold_f [m00 m; m10 m; m20 m; m01 m; m11 m; m21 m; m02 m; m12 m; m22 m] o_zero 0) as (c & H1 & H2 & H3 & H4).
  { repeat (apply Forall_cons; [tauto|]). constructor. } { exact (fl_zero' 53 1024 f64_prec f64_emax gsin gcos). }
  exists c. split; [exact H1|].
  inversion H3 as [|? ? K1 H5]; subst. inversion H5 as [|? ? K2 H6]; subst. inversion H6 as [|? ? K3 H7]; subst. inversion H7 as [|? ? K4 H8]; subst. inversion H8 as [|? ? K5 H9]; subst. inversion H9 as [|? ? K6 H10]; subst. inversion H10 as [|? ? K7 H11]; subst. inversion H11 as [|? ? K8 H12]; subst. inversion H12 as [|? ? K9 _]; subst.
  split; [repeat split; assumption|]. split; [exact H2|]. destruct EB as (B0 & B1 & B2 & B3 & B4 & B5 & B6 & B7 & B8). destruct H4 as [->|H4]; [pose proof (Rabs_pos (B2R (m00 m))); lra|].
  rewrite !Exists_cons in H4. rewrite Exists_nil in H4. destruct H4 as [->|[->|[->|[->|[->|[->|[->|[->|[->|[]]]]]]]]]]; assumption.
Qed.
Lemma unscale_f (m : M33 F) s c : mfin m -> flr s c -> 0 < c -> entries_le c (mreal m) Z9 ->
  mfin (m33_unscale m s) /\ entries_le (1 + u) (mreal (m33_unscale m s)) Z9 /\ entries_le (u * c) (mscl c (mreal (m33_unscale m s))) (mreal m) /\
  (mtr (mreal m) = mreal m -> mtr (mreal (m33_unscale m s)) = mreal (m33_unscale m s)).
Proof.
  intros FM FS C EM. pose proof u64_le as U. pose proof (bpow_gt_0 radix2 (- (53))) as U0. pose proof tiny64_le as TI. pose proof big64_ge as BG.
  assert (K : forall x r, flr x r -> Rabs r <= c -> flr (o_div x s) (rnd (r / c)) /\ Rabs (rnd (r / c)) <= 1 + u /\ Rabs (c * rnd (r / c) - r) <= u * c).
  { intros x r FX L. assert (L1 : Rabs (r / c) <= 1). { unfold Rdiv. rewrite Rabs_mult, (Rabs_pos_eq (/ c)) by (left; now apply Rinv_0_lt_compat). apply (Rmult_le_reg_r c); [lra|]. rewrite Rmult_assoc, Rinv_l by lra. lra. }
    destruct (rnd_near 53 1024 f64_prec (r / c) 1 ltac:(lra) L1) as (E & G). split; [|split; [lra|]].
    - apply (fl_div 53 1024 f64_prec f64_emax gsin gcos); [exact FX|exact FS|lra|unfold FloatRound.big; lra].
    - replace (c * rnd (r / c) - r) with (c * (rnd (r / c) - r / c)) by (field; lra). rewrite Rabs_mult, (Rabs_pos_eq c) by lra. rewrite (Rmult_comm u). apply Rmult_le_compat_l; lra. }
  apply mfin_fl in FM. apply entries_abs in EM. destruct m as [a0 a1 a2 a3 a4 a5 a6 a7 a8]. unfold mreal in EM. cbn [m00 m01 m02 m10 m11 m12 m20 m21 m22] in *.
  destruct FM as (FA0 & FA1 & FA2 & FA3 & FA4 & FA5 & FA6 & FA7 & FA8). destruct EM as (EA0 & EA1 & EA2 & EA3 & EA4 & EA5 & EA6 & EA7 & EA8).
  destruct (K _ _ FA0 EA0) as ((D0 & V0) & G0 & H0). destruct (K _ _ FA1 EA1) as ((D1 & V1) & G1 & H1). destruct (K _ _ FA2 EA2) as ((D2 & V2) & G2 & H2).
  destruct (K _ _ FA3 EA3) as ((D3 & V3') & G3 & H3). destruct (K _ _ FA4 EA4) as ((D4 & V4) & G4 & H4). destruct (K _ _ FA5 EA5) as ((D5 & V5) & G5 & H5).
  destruct (K _ _ FA6 EA6) as ((D6 & V6) & G6 & H6). destruct (K _ _ FA7 EA7) as ((D7 & V7) & G7 & H7). destruct (K _ _ FA8 EA8) as ((D8 & V8) & G8 & H8).
  assert (VM : mreal (m33_unscale (mkM33 a0 a1 a2 a3 a4 a5 a6 a7 a8) s) = mkM33 (rnd (B2R a0 / c)) (rnd (B2R a1 / c)) (rnd (B2R a2 / c)) (rnd (B2R a3 / c)) (rnd (B2R a4 / c)) (rnd (B2R a5 / c)) (rnd (B2R a6 / c)) (rnd (B2R a7 / c)) (rnd (B2R a8 / c)))
    by (unfold mreal, m33_unscale; cbn [m00 m01 m02 m10 m11 m12 m20 m21 m22]; now rewrite V0, V1, V2, V3', V4, V5, V6, V7, V8).
  split; [|split; [|split]].
  - unfold mfin, mat_near, near. rewrite VM. unfold m33_unscale. cbn [m00 m01 m02 m10 m11 m12 m20 m21 m22]. rewrite V0, V1, V2, V3', V4, V5, V6, V7, V8, !Rminus_eq_0, Rabs_R0. repeat split; try assumption; lra.
  - rewrite VM. unfold entries_le. cbn [m00 m01 m02 m10 m11 m12 m20 m21 m22]. rewrite !Rminus_0_r. repeat split; assumption.
  - rewrite VM. unfold entries_le, mscl, mreal. cbn [m00 m01 m02 m10 m11 m12 m20 m21 m22]. repeat split; assumption.
  - intros Sy. rewrite VM. unfold mreal, mtr in *. cbn [m00 m01 m02 m10 m11 m12 m20 m21 m22] in *. apply M33_inv in Sy. cbn [m00 m01 m02 m10 m11 m12 m20 m21 m22] in Sy. destruct Sy as (_ & -> & -> & _ & _ & -> & _). reflexivity.
Qed.
End F64.
