(** * FloatSvdProofs21.v - the symmetric eigenproblem and the decomposition converge in double precision (C113) *)

From Coq Require Import ZArith Reals List Bool Lra Lia Psatz.
From Flocq Require Import Core BinarySingleNaN.
From Verif Require Import Scalar Linalg Householder RayIntersection SymEigen Spec SpecGeom SpecIsect SpecFloatErr SpecFloatIsect SpecSvd RealBase VecLemmas ExtrinsicsProofs IsectBase IsectProofs SpectralProofs TriProofs FloatBase FloatRound FloatErrProofs FloatApprox FloatDirProofs FloatIsectProofs4 FloatQRProofs QRProofs
  SymEigenProofs SymEigenProofs2 SymEigenProofs3 SymEigenProofs4 SymEigenProofs6 FloatSvdProofs FloatSvdProofs2 FloatSvdProofs3 FloatSvdProofs4 FloatSvdProofs5 FloatSvdProofs6 FloatSvdProofs7 FloatSvdProofs8 FloatSvdProofs9 FloatSvdProofs10 FloatSvdProofs11 FloatSvdProofs12 FloatSvdProofs13 FloatSvdProofs17 FloatSvdProofs18 FloatSvdProofs19 FloatSvdProofs20.
Import ListNotations.
Local Open Scope R_scope.
Local Notation Z9 := (mkM33 0 0 0 0 0 0 0 0 0).

Lemma tr3_mscl c s : tr3 (mscl c s) = c * tr3 s.
Proof. destruct s. unfold tr3. ru_spec. ring. Qed.

Section F64.
Variables gsin gcos : binary_float 53 1024 -> binary_float 53 1024.
Local Notation F := (binary_float 53 1024).
Local Hint Extern 0 (Ops (binary_float 53 1024)) => exact (B_ops 53 1024 f64_prec f64_emax gsin gcos) : typeclass_instances.
Local Notation flr := (fl 53 1024).
Local Notation u := (bpow radix2 (- (53))).

Lemma eigen_ok (m : M33 F) k eps e : mfin m -> at_most k (mreal m) -> bpow radix2 (- (500)) <= k <= bpow radix2 500 ->
  flr eps e -> 0.99e-7 <= e <= 1.01e-7 ->
  (forall v, 0.49 * (k * k) * vdot v v + vdot v (mv (mm (mtr (mreal m)) (mreal m)) v) <= tr3 (mm (mtr (mreal m)) (mreal m)) * vdot v v) ->
  exists d q, symmetric_eigen (m33_mul (m33_transpose m) m) eps 100 = Some (Some (d, q)) /\
    exists Q, qnear q Q 6e-12 /\ solved (mm (mtr (mreal m)) (mreal m)) Q ((8 * e + 5e-11) * (k * k)).
Proof.
  intros FM AM SK FE E1 TG. destruct (sized_k k SK) as (T & BG). pose proof u64_le as U. pose proof (bpow_gt_0 radix2 (- (53))) as U0. pose proof (bpow_gt_0 radix2 (2 - 1024)) as T0.
  pose proof (gram_bnd k _ AM) as GB. assert (PG : forall v, 0 <= vdot v (mv (mm (mtr (mreal m)) (mreal m)) v)) by (intros v; rewrite <- SymEigenProofs5.dot_gram, <- vlen_sq; apply sqn). set (G := mm (mtr (mreal m)) (mreal m)) in *.
  destruct (gram_f gsin gcos m k FM AM T ltac:(lra)) as (FS & SY & AS). fold G in AS. set (S := m33_mul (m33_transpose m) m) in *. clearbody S G.
  set (K := k * k) in *. assert (K0 : 0 < K) by lra. clearbody K.
  assert (UK : u * K <= 1.12e-16 * K) by (apply Rmult_le_compat_r; lra).
  pose proof (bnd_appr _ _ _ _ GB (appr_sym _ _ _ AS)) as BS. apply (bnd_le _ _ ((1 + 4e-15) * K)) in BS; [|lra].
  pose proof (bnd_entries _ _ BS) as ES. destruct (camax_f gsin gcos S _ FS ES) as (c & FC & EC & C0 & CK).
  assert (CP : 0.1 * K <= c).
  { pose proof (TG (mkV3 1 0 0)) as H. specialize (PG (mkV3 1 0 0)). rewrite e0_dot, e0_one in H. rewrite e0_dot in PG. pose proof (tr3_appr _ _ _ AS) as T3. apply Rabs_le_inv in T3. apply entries_abs in EC. destruct EC as (E00 & _ & _ & _ & E11 & _ & _ & _ & E22).
    unfold tr3 in T3 at 1. pose proof (Rle_abs (m00 (mreal S))). pose proof (Rle_abs (m11 (mreal S))). pose proof (Rle_abs (m22 (mreal S))). lra. }
  assert (CP0 : 0 < c) by lra.
  destruct (unscale_f gsin gcos S _ c FS FC CP0 EC) as (FU & EU & AU & SU). specialize (SU SY).
  unfold symmetric_eigen. replace (o_eqb (camax S) (o_zero : F)) with false.
  2: { symmetry. pose proof (fl_eqb 53 1024 f64_prec f64_emax gsin gcos _ _ _ _ FC (fl_zero' 53 1024 f64_prec f64_emax gsin gcos)) as H. destruct (o_eqb (camax S) o_zero); [|reflexivity]. destruct H as (H & _). specialize (H eq_refl). lra. }
  cbn [negb]. set (s := m33_unscale S (camax S)) in *. set (cm := camax S) in *. clearbody cm s.
  apply entries_appr in AU. assert (UC : u * c <= 1.12e-16 * c) by (apply Rmult_le_compat_r; lra).
  assert (AG : appr (mscl c (mreal s)) G (4e-15 * K)). { eapply appr_le; [|eapply appr_trans; [exact AU|exact AS]]. lra. }
  assert (B3 : bnd (mreal s) 3.01). { eapply bnd_le; [apply (bnd_appr _ _ _ _ bnd_Z9 (appr_sym _ _ _ (entries_appr _ _ _ EU)))|lra]. }
  assert (BC : bnd (mscl c (mreal s)) ((1 + 4e-15) * K)). { eapply bnd_le; [apply (bnd_appr _ _ _ _ GB (appr_sym _ _ _ AG))|lra]. }
  set (sg := (1 + 4e-15) * K / c). assert (SG : sg * c = (1 + 4e-15) * K) by (unfold sg; field; lra).
  assert (B4 : bnd (mreal s) sg).
  { intros v. specialize (BC v). rewrite mv_mscl, vlen_vscl, (Rabs_pos_eq c) in BC by lra. apply (Rmult_le_reg_l c); [exact CP0|]. replace (c * (sg * vlen v)) with (sg * c * vlen v) by ring. rewrite SG. exact BC. }
  set (l := Rmax 1 (Rmin sg 3.01)).
  assert (Bl : bnd (mreal s) l). { unfold l. apply bnd_le with (Rmin sg 3.01); [|apply Rmax_r]. unfold Rmin. destruct (Rle_dec sg 3.01); assumption. }
  assert (Ll : 1 <= l <= 3.05). { unfold l. split; [apply Rmax_l|]. apply Rmax_lub; [lra|]. eapply Rle_trans; [apply Rmin_r|lra]. }
  assert (LC : l * c <= (1 + 4e-15) * K). { unfold l, Rmax. destruct (Rle_dec 1 (Rmin sg 3.01)); [|lra]. rewrite <- SG. apply Rmult_le_compat_r; [lra|apply Rmin_l]. }
  assert (PD : forall v, -1e-12 * vdot v v <= vdot v (mv (mreal s) v)).
  { intros v. pose proof (appr_dot _ _ _ v AG) as A. apply Rabs_le_inv in A. rewrite vdot_mscl in A. specialize (PG v). assert (V0 : 0 <= vdot v v) by (rewrite <- vlen_sq; apply sqn).
    assert (4e-15 * K * vdot v v <= 1e-12 * c * vdot v v) by (apply Rmult_le_compat_r; lra). apply (Rmult_le_reg_l c); [exact CP0|]. lra. }
  assert (TR : forall v, 0.48 * l * vdot v v + vdot v (mv (mreal s) v) <= tr3 (mreal s) * vdot v v).
  { intros v. pose proof (appr_dot _ _ _ v AG) as A. apply Rabs_le_inv in A. rewrite vdot_mscl in A. pose proof (tr3_appr _ _ _ AG) as T3. rewrite tr3_mscl in T3. apply Rabs_le_inv in T3. specialize (TG v). assert (V0 : 0 <= vdot v v) by (rewrite <- vlen_sq; apply sqn).
    assert (H1 : (tr3 G - 3 * (4e-15 * K)) * vdot v v <= c * tr3 (mreal s) * vdot v v) by (apply Rmult_le_compat_r; lra). assert (H2 : 0.48 * (l * c) * vdot v v <= 0.48 * ((1 + 4e-15) * K) * vdot v v) by (apply Rmult_le_compat_r; lra).
    assert (H3 : 0 <= K * vdot v v) by (apply Rmult_le_pos; lra). apply (Rmult_le_reg_l c); [exact CP0|]. lra. }
  assert (E11 : entries_le 1.1 (mreal s) Z9) by (unfold entries_le in *; lra).
  destruct (tridiagonalize_f gsin gcos s l FU SU Bl ltac:(lra) E11) as (q0 & d0 & o0 & -> & Fd & Fo & FO).
  destruct (finv_2 gsin gcos (mreal s) l e eps Bl Ll FE E1 (low_s _ _ Ll TR) d0 o0 q0 3e-12 2e-11 ltac:(lra) Fd Fo FO) as (st & fi & o1 & DE & I).
  destruct (converges gsin gcos (mreal s) l e eps Bl Ll PD FE E1 TR d0 o0 q0 3e-12 2e-11 st fi o1 ltac:(lra) ltac:(lra) I DE) as ((d' & q') & ER).
  destruct (loop_f gsin gcos (mreal s) l e eps Bl Ll FE E1 (low_s _ _ Ll TR) 100 st fi d0 o1 q0 3e-12 2e-11 I) as (r & ER' & HR); [|replace (INR 100) with 100 by (rewrite INR_IZR_INZ; reflexivity); lra|].
  { replace (INR 100) with 100 by (rewrite INR_IZR_INZ; reflexivity); lra. }
  rewrite ER in ER'. injection ER' as <-. rewrite DE. cbn [bind]. rewrite ER. cbn [bind]. do 2 eexists. split; [reflexivity|].
  destruct (HR d' q' eq_refl) as (l' & Q & (QF & QO & QA) & A). replace (INR 100) with 100 in * by (rewrite INR_IZR_INZ; reflexivity).
  exists Q. split; [split; [exact QF|split; [exact QO|]]; eapply appr_le; [|exact QA]; lra|].
  assert (SO : solved (mreal s) Q (4e-11 + 8 * (e * l))). { split; [exact QO|]. exists l'. eapply appr_le; [|exact A]. lra. }
  apply (solved_mscl c) in SO; [|lra]. apply (solved_appr _ _ _ _ _ (appr_sym _ _ _ AG)) in SO. apply (solved_le _ _ _ _ SO).
  replace (c * (4e-11 + 8 * (e * l))) with (4e-11 * c + 8 * e * (l * c)) by ring.
  assert (8 * e * (l * c) <= 8 * e * ((1 + 4e-15) * K)) by (apply Rmult_le_compat_l; lra).
  assert (e * K <= 1.01e-7 * K) by (apply Rmult_le_compat_r; lra). lra.
Qed.
End F64.
