(** * FloatSvdProofs11.v - the symmetric eigenproblem in double precision, continued (C110) *)

From Coq Require Import ZArith Reals List Bool Lra Lia Psatz.
From Flocq Require Import Core BinarySingleNaN.
From Verif Require Import Scalar Linalg Householder RayIntersection SymEigen Spec SpecGeom SpecIsect SpecFloatErr SpecFloatIsect SpecSvd RealBase VecLemmas ExtrinsicsProofs IsectBase IsectProofs SpectralProofs TriProofs FloatBase FloatRound FloatErrProofs FloatApprox FloatDirProofs FloatIsectProofs4 FloatQRProofs QRProofs
  SymEigenProofs SymEigenProofs2 SymEigenProofs3 SymEigenProofs4 SymEigenProofs6 FloatSvdProofs FloatSvdProofs2 FloatSvdProofs3 FloatSvdProofs4 FloatSvdProofs5 FloatSvdProofs6 FloatSvdProofs7 FloatSvdProofs8 FloatSvdProofs9 FloatSvdProofs10.
Import ListNotations.
Local Open Scope R_scope.
Local Notation Z9 := (mkM33 0 0 0 0 0 0 0 0 0).

Lemma appr_dot a b e v : appr a b e -> Rabs (vdot v (mv a v) - vdot v (mv b v)) <= e * vdot v v.
Proof.
  intros A. specialize (A v). unfold vdist in A. rewrite <- vdot_vsub_r. eapply Rle_trans; [apply cauchy|].
  pose proof (vlen_nonneg v). rewrite <- (vlen_sq v). apply Rle_trans with (vlen v * (e * vlen v)); [apply Rmult_le_compat_l; lra|lra].
Qed.
Lemma solved_appr a b q e f : appr a b e -> solved b q f -> solved a q (e + f).
Proof. intros A (O & l & H). split; [exact O|]. exists l. eapply appr_trans; eassumption. Qed.
Lemma solved_le s q e f : solved s q e -> e <= f -> solved s q f.
Proof. intros (O & l & H) L. split; [exact O|]. exists l. eapply appr_le; eassumption. Qed.
Lemma bnd_le m a b : bnd m a -> a <= b -> bnd m b.
Proof. intros H L v. eapply Rle_trans; [apply H|]. apply Rmult_le_compat_r; [apply vlen_nonneg|exact L]. Qed.
Lemma mv_Z9 v : mv Z9 v = vO.
Proof. vring. Qed.
Lemma bnd_Z9 : bnd Z9 0.
Proof. intros v. rewrite mv_Z9, vlen_O. lra. Qed.
Lemma vdot_mscl c s v : vdot v (mv (mscl c s) v) = c * vdot v (mv s v).
Proof. rewrite mv_mscl. generalize (mv s v). intros w. vring. Qed.
Lemma gram_pd lam m v : 0 <= lam -> at_least lam m -> lam * lam * vdot v v <= vdot v (mv (mm (mtr m) m) v).
Proof.
  intros L A. specialize (A v). rewrite <- SymEigenProofs5.dot_gram, <- !vlen_sq. pose proof (vlen_nonneg v).
  replace (lam * lam * (vlen v * vlen v)) with (lam * vlen v * (lam * vlen v)) by ring. assert (0 <= lam * vlen v) by (apply Rmult_le_pos; lra). apply Rmult_le_compat; lra.
Qed.
Lemma e0_dot m : vdot (mkV3 1 0 0) (mv m (mkV3 1 0 0)) = m00 m.
Proof. destruct m. vring. Qed.
Lemma e0_one : vdot (mkV3 1 0 0) (mkV3 1 0 0) = 1.
Proof. vring. Qed.

Section F64.
Variables gsin gcos : binary_float 53 1024 -> binary_float 53 1024.
Local Notation F := (binary_float 53 1024).
Local Hint Extern 0 (Ops (binary_float 53 1024)) => exact (B_ops 53 1024 f64_prec f64_emax gsin gcos) : typeclass_instances.
Local Notation flr := (fl 53 1024).
Local Notation u := (bpow radix2 (- (53))).

Lemma sized_k k : bpow radix2 (- (500)) <= k <= bpow radix2 500 -> bpow radix2 (2 - 1024) <= k * k /\ 100 * (k * k) < bpow radix2 1024.
Proof.
  intros (A & B). pose proof (bpow_gt_0 radix2 (- (500))) as P.
  assert (H1 : bpow radix2 (- (500)) * bpow radix2 (- (500)) <= k * k) by (apply Rmult_le_compat; lra).
  assert (H2 : k * k <= bpow radix2 500 * bpow radix2 500) by (apply Rmult_le_compat; lra).
  rewrite <- bpow_plus in H1, H2. split.
  - eapply Rle_trans; [|exact H1]. apply bpow_le. lia.
  - assert (H3 : 128 * bpow radix2 (500 + 500) < bpow radix2 1024). { replace 128 with (bpow radix2 7) by (simpl; lra). rewrite <- bpow_plus. apply bpow_lt. lia. } pose proof (bpow_gt_0 radix2 (500 + 500)). lra.
Qed.

Lemma eigen_f (m : M33 F) k lam eps e n : mfin m -> at_most k (mreal m) -> at_least lam (mreal m) -> 0 < lam -> bpow radix2 (- (500)) <= k <= bpow radix2 500 ->
  flr eps e -> 0.99e-7 <= e <= 1.01e-7 -> 100 * e * (k * k) <= lam * lam -> (n <= 100)%nat ->
  exists r, symmetric_eigen (m33_mul (m33_transpose m) m) eps n = Some r /\
    forall d q, r = Some (d, q) -> exists Q, qnear q Q 6e-12 /\ solved (mm (mtr (mreal m)) (mreal m)) Q ((8 * e + 5e-11) * (k * k)).
Proof.
  intros FM AM AL L0 SK FE E1 CO N. destruct (sized_k k SK) as (T & BG). pose proof u64_le as U. pose proof (bpow_gt_0 radix2 (- (53))) as U0. pose proof (bpow_gt_0 radix2 (2 - 1024)) as T0.
  pose proof (gram_bnd k _ AM) as GB. pose proof (fun v => gram_pd lam _ v (Rlt_le _ _ L0) AL) as PG. set (G := mm (mtr (mreal m)) (mreal m)) in *.
  destruct (gram_f gsin gcos m k FM AM T ltac:(lra)) as (FS & SY & AS). fold G in AS. set (S := m33_mul (m33_transpose m) m) in *. clearbody S G.
  set (K := k * k) in *. assert (K0 : 0 < K) by lra. clearbody K.
  assert (UK : u * K <= 1.12e-16 * K) by (apply Rmult_le_compat_r; lra).
  assert (CO' : 9.9e-6 * K <= lam * lam) by (assert (9.9e-6 * K <= 100 * e * K) by (apply Rmult_le_compat_r; lra); lra). set (L := lam * lam) in *. clearbody L.
  pose proof (bnd_appr _ _ _ _ GB (appr_sym _ _ _ AS)) as BS. apply (bnd_le _ _ ((1 + 4e-15) * K)) in BS; [|lra].
  pose proof (bnd_entries _ _ BS) as ES. destruct (camax_f gsin gcos S _ FS ES) as (c & FC & EC & C0 & CK).
  assert (PS : forall v, (L - 3.1e-15 * K) * vdot v v <= vdot v (mv (mreal S) v)).
  { intros v. pose proof (appr_dot _ _ _ v AS) as A. apply Rabs_le_inv in A. specialize (PG v). assert (27 * u * K * vdot v v <= 3.1e-15 * K * vdot v v) by (apply Rmult_le_compat_r; [rewrite <- vlen_sq; apply sqn|lra]). lra. }
  assert (CP : 0 < c).
  { pose proof (PS (mkV3 1 0 0)) as H. rewrite e0_dot, e0_one in H. apply entries_abs in EC. destruct EC as (EC & _). pose proof (Rle_abs (m00 (mreal S))). lra. }
  destruct (unscale_f gsin gcos S _ c FS FC CP EC) as (FU & EU & AU & SU). specialize (SU SY).
  unfold symmetric_eigen. replace (o_eqb (camax S) (o_zero : F)) with false.
  2: { symmetry. pose proof (fl_eqb 53 1024 f64_prec f64_emax gsin gcos _ _ _ _ FC (fl_zero' 53 1024 f64_prec f64_emax gsin gcos)) as H. destruct (o_eqb (camax S) o_zero); [|reflexivity]. destruct H as (H & _). specialize (H eq_refl). lra. }
  cbn [negb]. set (s := m33_unscale S (camax S)) in *. set (cm := camax S) in *. clearbody cm s.
  apply entries_appr in AU. assert (UC : u * c <= 1.12e-16 * c) by (apply Rmult_le_compat_r; lra).
  assert (AG : appr (mscl c (mreal s)) G (4e-15 * K)). { eapply appr_le; [|eapply appr_trans; [exact AU|exact AS]]. lra. }
  assert (B3 : bnd (mreal s) 3.01). { eapply bnd_le; [apply (bnd_appr _ _ _ _ bnd_Z9 (appr_sym _ _ _ (entries_appr _ _ _ EU)))|lra]. }
  assert (BC : bnd (mscl c (mreal s)) ((1 + 4e-15) * K)). { eapply bnd_le; [apply (bnd_appr _ _ _ _ GB (appr_sym _ _ _ AG))|lra]. }
  set (sg := (1 + 4e-15) * K / c). assert (SG : sg * c = (1 + 4e-15) * K) by (unfold sg; field; lra).
  assert (B4 : bnd (mreal s) sg).
  { intros v. specialize (BC v). rewrite mv_mscl, vlen_vscl, (Rabs_pos_eq c) in BC by lra. apply (Rmult_le_reg_l c); [exact CP|]. replace (c * (sg * vlen v)) with (sg * c * vlen v) by ring. rewrite SG. exact BC. }
  set (l := Rmax 1 (Rmin sg 3.01)).
  assert (Bl : bnd (mreal s) l). { unfold l. apply bnd_le with (Rmin sg 3.01); [|apply Rmax_r]. unfold Rmin. destruct (Rle_dec sg 3.01); assumption. }
  assert (Ll : 1 <= l <= 3.05). { unfold l. split; [apply Rmax_l|]. apply Rmax_lub; [lra|]. eapply Rle_trans; [apply Rmin_r|lra]. }
  assert (LC : l * c <= (1 + 4e-15) * K). { unfold l, Rmax. destruct (Rle_dec 1 (Rmin sg 3.01)); [|lra]. rewrite <- SG. apply Rmult_le_compat_r; [lra|apply Rmin_l]. }
  assert (PD : forall v, 9e-6 * vdot v v <= vdot v (mv (mreal s) v)).
  { intros v. pose proof (appr_dot _ _ _ v AG) as A. apply Rabs_le_inv in A. rewrite vdot_mscl in A. specialize (PG v). assert (V0 : 0 <= vdot v v) by (rewrite <- vlen_sq; apply sqn).
    assert (9.8e-6 * K * vdot v v <= (L - 4e-15 * K) * vdot v v) by (apply Rmult_le_compat_r; lra). assert (9e-6 * c * vdot v v <= 9.8e-6 * K * vdot v v) by (apply Rmult_le_compat_r; lra).
    apply (Rmult_le_reg_l c); [exact CP|]. lra. }
  assert (E11 : entries_le 1.1 (mreal s) Z9) by (unfold entries_le in *; lra).
  destruct (tridiagonalize_f gsin gcos s l FU SU Bl ltac:(lra) E11) as (q0 & d0 & o0 & -> & Fd & Fo & FO).
  destruct (finv_2 gsin gcos (mreal s) l e eps Bl Ll FE E1 (low_of_pd _ PD) d0 o0 q0 3e-12 2e-11 ltac:(lra) Fd Fo FO) as (st & fi & o1 & -> & I).
  assert (NN : INR n <= 100). { apply le_INR in N. replace (INR 100) with 100 in N by (rewrite INR_IZR_INZ; reflexivity). exact N. }
  destruct (loop_f gsin gcos (mreal s) l e eps Bl Ll FE E1 (low_of_pd _ PD) n st fi d0 o1 q0 3e-12 2e-11 I ltac:(lra) ltac:(lra)) as (r & ER & HR). cbn [bind]. rewrite ER. cbn [bind].
  destruct r as [(d' & q')|]; [|eexists; split; [reflexivity|discriminate]].
  eexists. split; [reflexivity|]. intros d q E. injection E as _ <-. destruct (HR d' q' eq_refl) as (l' & Q & (QF & QO & QA) & A).
  exists Q. split; [split; [exact QF|split; [exact QO|]]; eapply appr_le; [|exact QA]; lra|].
  assert (SO : solved (mreal s) Q (4e-11 + 8 * (e * l))). { split; [exact QO|]. exists l'. eapply appr_le; [|exact A]. lra. }
  apply (solved_mscl c) in SO; [|lra]. apply (solved_appr _ _ _ _ _ (appr_sym _ _ _ AG)) in SO. apply (solved_le _ _ _ _ SO).
  replace (c * (4e-11 + 8 * (e * l))) with (4e-11 * c + 8 * e * (l * c)) by ring.
  assert (8 * e * (l * c) <= 8 * e * ((1 + 4e-15) * K)) by (apply Rmult_le_compat_l; lra).
  assert (e * K <= 1.01e-7 * K) by (apply Rmult_le_compat_r; lra). lra.
Qed.
End F64.
