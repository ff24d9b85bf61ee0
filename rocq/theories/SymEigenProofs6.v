(** * SymEigenProofs6.v - nalgebra's 3x3 SVD over the reals, and the intersection of rays computed with it *)

From Coq Require Import Reals List Arith Lra Lia Psatz.
From Verif Require Import Scalar Linalg Bundles Householder RayIntersection SymEigen Spec SpecGeom SpecIsect SpecTri SpecSvd RealBase VecLemmas FromViewProofs QRProofs
  IsectBase IsectProofs SpectralProofs TriProofs FloatIsectProofs4 SymEigenProofs SymEigenProofs2 SymEigenProofs3 SymEigenProofs4 SymEigenProofs5.
Import ListNotations.
Local Open Scope R_scope.

Lemma at_most_pos k m : at_most k m -> 0 <= k.
Proof.
  intros B. specialize (B (mkV3 1 0 0)). pose proof (vlen_nonneg (mv m (mkV3 1 0 0))). rewrite (vlen_1 (mkV3 1 0 0)) in B by vring. lra.
Qed.
Lemma at_most_mtr k m : at_most k m -> at_most k (mtr m).
Proof.
  intros B v. pose proof (at_most_pos k m B) as K. pose proof (vlen_nonneg (mv (mtr m) v)) as P. pose proof (vlen_nonneg v) as V.
  destruct (Req_dec (vlen (mv (mtr m) v)) 0) as [->|Z]; [now apply Rmult_le_pos|].
  apply (Rmult_le_reg_l (vlen (mv (mtr m) v))); [lra|]. rewrite vlen_sq.
  rewrite vdot_mv, mtr_mtr. specialize (B (mv (mtr m) v)). pose proof (cauchy v (mv m (mv (mtr m) v))) as C.
  pose proof (Rle_abs (vdot v (mv m (mv (mtr m) v)))) as A.
  assert (H : vlen v * vlen (mv m (mv (mtr m) v)) <= vlen v * (k * vlen (mv (mtr m) v))) by now apply Rmult_le_compat_l.
  lra.
Qed.
Lemma gram_bnd k m : at_most k m -> bnd (mm (mtr m) m) (k * k).
Proof.
  intros B v. rewrite mv_mm. pose proof (at_most_mtr k m B (mv m v)) as H. pose proof (at_most_pos k m B) as K.
  specialize (B v). assert (k * vlen (mv m v) <= k * (k * vlen v)) by now apply Rmult_le_compat_l. lra.
Qed.

(** the factors found: [m v = q r] with nearly orthogonal columns of decreasing length *)
Lemma svd_ordered3_factors m k eps n : 0 <= eps -> at_most k m ->
  exists o, svd_ordered3 m true true eps n = Some o /\ forall d, o = Some d -> exists q r v,
    d = mkSVD (Some q) (mkV3 (m00 r) (m11 r) (m22 r)) (Some (mtr v)) /\ orthogonal q /\ orthogonal v /\ mm q r = mm m v /\
    m10 r = 0 /\ m20 r = 0 /\ m21 r = 0 /\ 0 <= m00 r /\ 0 <= m11 r /\ 0 <= m22 r /\
    (Rabs (m00 r * m01 r) <= 4 * eps * (k * k) /\ Rabs (m00 r * m02 r) <= 4 * eps * (k * k) /\ Rabs (m01 r * m02 r + m11 r * m12 r) <= 4 * eps * (k * k)) /\
    m01 r * m01 r + m11 r * m11 r <= m00 r * m00 r /\
    m02 r * m02 r + m12 r * m12 r + m22 r * m22 r <= m01 r * m01 r + m11 r * m11 r.
Proof.
  intros E0 B. pose proof (at_most_pos k m B) as K.
  destruct (symmetric_eigen_spec (mm (mtr m) m) (k * k) eps n) as (r & E & H);
    [now rewrite mtr_mm, mtr_mtr|exact E0|nra|now apply gram_bnd|].
  unfold svd_ordered3. rewrite m33_transpose_R, m33_mul_R, E. cbn [bind]. clear E.
  destruct r as [(vals, v)|]; [|eexists; split; [reflexivity|discriminate]]. specialize (H _ _ eq_refl).
  rewrite m33_mul_R, col_norm_0, col_norm_1, col_norm_2. cbn [bind o_ltb R_ops].
  destruct (order_01 m v _ _ _ _ _ H eq_refl eq_refl eq_refl) as (v1 & -> & S1 & N1). cbn [bind fst snd].
  set (rr := if Rltb (cn0 (mm m v)) (cn1 (mm m v)) then (cn1 (mm m v), cn0 (mm m v)) else (cn0 (mm m v), cn1 (mm m v))) in *.
  destruct rr as [a0 a1]. cbn [fst snd] in N1. destruct N1 as (N10 & N11 & N12 & N13).
  destruct (order_02 m v1 _ _ a0 a1 (cn2 (mm m v)) S1 (eq_sym N10) (eq_sym N11) (eq_sym N12)) as (v2 & -> & S2 & N2). cbn [bind fst snd].
  set (rr := if Rltb a0 (cn2 (mm m v)) then (cn2 (mm m v), a0) else (a0, cn2 (mm m v))) in *.
  destruct rr as [b0 b2]. cbn [fst snd] in N2. destruct N2 as (N20 & N21 & N22 & N23 & N24).
  destruct (order_12 m v2 _ _ b0 a1 b2 S2 (eq_sym N20) (eq_sym N21) (eq_sym N22)) as (v3 & -> & S3 & N31 & N32); [lra|lra|]. cbn [bind fst snd].
  eexists. split; [reflexivity|]. intros d HD. apply some_inj in HD. subst d.
  destruct (qr_spec (mm m v3)) as (Oq & (Z1 & Z2 & Z3 & P0 & P1 & P2) & QR). cbv zeta in *.
  set (dd := qr_new (cols_of_m33 (mm m v3))) in *.
  match goal with |- context [mkSVD _ ?s _] => change s with (mkV3 (m00 (qr_r dd)) (m11 (qr_r dd)) (m22 (qr_r dd))) end.
  set (q := qr_q dd) in *. set (r := qr_r dd) in *. clearbody q r. clear dd.
  exists q, r, v3. pose proof S3 as (Ov & _).
  destruct (cols_off m v3 _ S3) as (O1 & O2 & O3). destruct (upper_dots q r Oq Z1 Z2 Z3) as (U0 & U1 & U2 & U3 & U4 & U5). cbv zeta in *.
  unfold cn0, cn1, cn2 in N31, N32.
  rewrite <- QR in O1, O2, O3, N31, N32. rewrite U3 in O1. rewrite U4 in O2. rewrite U5 in O3. rewrite U0, U1 in N31. rewrite U1, U2 in N32.
  split; [reflexivity|]. split; [exact Oq|]. split; [exact Ov|]. split; [exact QR|]. do 6 (split; [assumption|]).
  split; [auto|]. split; [exact N31|exact N32].
Qed.
Lemma svd_ordered3_spec m k eps n : 0 <= eps -> at_most k m ->
  exists r, svd_ordered3 m true true eps n = Some r /\ forall d, r = Some d ->
    decomposes (8 * sqrt eps * k) m d /\
    forall lam, 0 < lam -> at_least lam m -> 40 * eps * (k * k) <= lam * lam -> decomposes (13 * eps * (k * k) / lam) m d.
Proof.
  intros E0 B. pose proof (at_most_pos k m B) as K.
  destruct (svd_ordered3_factors m k eps n E0 B) as (o & E & H). exists o. split; [exact E|]. clear E. intros d HD.
  destruct (H d HD) as (q & r & v3 & -> & Oq & Ov & QR & Z1 & Z2 & Z3 & P0 & P1 & P2 & (O1 & O2 & O3) & N31 & N32). clear H HD o.
  pose proof (orthogonal_mtr _ Ov) as Ovt.
  assert (EM : m = mm (mm q r) (mtr v3)).
  { rewrite QR, <- mm_assoc. destruct Ov as (_ & ->). now rewrite mm_I_r. }
  destruct (upper_dots q r Oq Z1 Z2 Z3) as (U0 & U1 & U2 & U3 & U4 & U5). cbv zeta in *. rewrite QR in *.
  pose proof (strict_upper_bound q r (mtr v3) _ Oq Ovt Z1 Z2 Z3 eq_refl) as A. rewrite QR, <- EM in A.
  assert (D : forall e, Rabs (m01 r) + Rabs (m02 r) + Rabs (m12 r) <= e ->
    decomposes e m (mkSVD (Some q) (mkV3 (m00 r) (m11 r) (m22 r)) (Some (mtr v3)))).
  { intros e He. exists q, (mtr v3). cbn [svd_u svd_vt svd_s vx vy vz]. split; [reflexivity|]. split; [reflexivity|].
    split; [exact Oq|]. split; [exact Ovt|]. split; [exact P0|]. split; [exact P1|]. split; [exact P2|]. exact (appr_le _ _ _ _ He A). }
  split.
  - apply D. set (t := 2 * sqrt eps * k). assert (T : t * t = 4 * eps * (k * k)).
    { unfold t. replace (2 * sqrt eps * k * (2 * sqrt eps * k)) with (4 * (sqrt eps * sqrt eps) * (k * k)) by ring. now rewrite sqrt_sqrt. }
    assert (T0 : 0 <= t) by (unfold t; apply Rmult_le_pos; [pose proof (sqrt_pos eps); lra|exact K]).
    replace (8 * sqrt eps * k) with (4 * t) by (unfold t; ring).
    apply (upper_any (m00 r) (m01 r) (m02 r) (m11 r) (m12 r) (m22 r) t); rewrite ?T; lra.
  - intros lam L AL LL. apply D.
    apply Rle_trans with (32 / 10 * (4 * eps * (k * k) / lam)).
    2: { unfold Rdiv. assert (0 < / lam) by now apply Rinv_0_lt_compat. assert (0 <= eps * (k * k)) by nra. assert (0 <= eps * (k * k) * / lam) by nra. lra. }
    assert (C0 : lam * lam <= m00 r * m00 r).
    { specialize (AL (mv v3 (mkV3 1 0 0))). rewrite orthogonal_len in AL by exact Ov. rewrite (vlen_1 (mkV3 1 0 0)) in AL by vring.
      rewrite <- mv_mm in AL. replace (mv (mm m v3) (mkV3 1 0 0)) with (mcol0 (mm m v3)) in AL by (generalize (mm m v3); intros []; vring).
      rewrite <- U0, <- vlen_sq. nra. }
    assert (C1 : lam * lam <= m01 r * m01 r + m11 r * m11 r).
    { specialize (AL (mv v3 (mkV3 0 1 0))). rewrite orthogonal_len in AL by exact Ov. rewrite (vlen_1 (mkV3 0 1 0)) in AL by vring.
      rewrite <- mv_mm in AL. replace (mv (mm m v3) (mkV3 0 1 0)) with (mcol1 (mm m v3)) in AL by (generalize (mm m v3); intros []; vring).
      rewrite <- U1, <- vlen_sq. nra. }
    apply (upper_cond (m00 r) (m01 r) (m02 r) (m11 r) (m12 r) lam); auto; try lra. nra.
Qed.

(** ** The rays *)
Lemma prj_len {C} (r : Ray C R) v : ray_direction r <> vO -> vlen (prj r v) <= vlen v.
Proof.
  intros N. apply vlen_le; [|apply vlen_nonneg]. rewrite vlen_sq. unfold prj.
  pose proof (vunit_dot _ N) as U. set (u := vunit (ray_direction r)) in *. clearbody u.
  pose proof (Rle_0_sqr (vdot u v)) as Q. unfold Rsqr in Q.
  replace (vdot (vsub (vscl (vdot u v) u) v) (vsub (vscl (vdot u v) u) v)) with (vdot u v * vdot u v * vdot u u - 2 * (vdot u v * vdot u v) + vdot v v)
    by (destruct u, v; ru_spec; ring).
  rewrite U. lra.
Qed.
Lemma Smat_at_most {C} (rays : list (Ray C R)) : nonzero_dirs rays -> at_most (INR (length rays)) (Smat rays).
Proof.
  induction rays as [|r rays IH]; intros N v.
  - rewrite Smat_nil, vlen_O. simpl. lra.
  - rewrite Smat_cons. eapply Rle_trans; [apply vlen_triangle|].
    apply Forall_cons_iff in N. destruct N as (N1 & N2).
    pose proof (prj_len r v N1) as P. cbn [length]. rewrite S_INR.
    specialize (IH N2 v). lra.
Qed.
Lemma Smat_at_least {C} (rays : list (Ray C R)) lam : nonzero_dirs rays -> spread lam rays -> at_least lam (Smat rays).
Proof.
  intros N H v. pose proof (spread_all lam rays v N H) as Q. rewrite sum_sq_sin_quad in Q by exact N.
  pose proof (cauchy v (mv (Smat rays) v)) as C0. pose proof (Rle_abs (- vdot v (mv (Smat rays) v))) as A. rewrite Rabs_Ropp in A.
  rewrite <- vlen_sq in Q. pose proof (vlen_nonneg v) as V. destruct (Req_dec (vlen v) 0) as [Z|Z].
  - rewrite Z, Rmult_0_r. apply vlen_nonneg.
  - apply (Rmult_le_reg_l (vlen v)); [lra|]. lra.
Qed.

Lemma C106_lemma {C} (rays : list (Ray C R)) lam x : (2 <= length rays)%nat -> nonzero_dirs rays -> spread lam rays ->
  2 / 1000 * INR (length rays) <= lam -> (forall y, sum_sq_dist rays x <= sum_sq_dist rays y) ->
  let best := best_intersection_of_rays (fun x => Some x) (fun x => x) svd3_try_new rays in
  best = Some (Err SvdFailed) \/
  exists x', best = Some (Ok (mkPoints [x'])) /\
    vdist x' x <= 2 / 1000000 * (INR (length rays) / lam)² * vlen x.
Proof.
  intros L N H G M best. set (n := INR (length rays)) in *.
  assert (N2 : 2 <= n) by (unfold n; apply le_INR in L; simpl in L; lra).
  assert (LP : 0 < lam) by lra. pose proof cutoff_pos as CP. pose proof cutoff_lt as CL.
  assert (K40 : 40 * cutoff * (n * n) <= lam * lam) by nra.
  destruct (svd_ordered3_spec (Smat rays) n cutoff 100 (Rlt_le _ _ CP) (Smat_at_most rays N)) as (r & E & HD).
  set (eta := 13 * cutoff * (n * n) / lam).
  assert (EL : eta * lam = 13 * cutoff * (n * n)) by (unfold eta; field; lra).
  assert (E0 : 0 <= eta) by (unfold eta; apply Rmult_le_pos; [nra|left; now apply Rinv_0_lt_compat]).
  assert (E1 : 40 * eta <= 13 * lam) by nra.
  set (svd := fun (m : M33 R) (_ _ : bool) (_ : R) (_ : nat) => if M33_dec m (Smat rays) then r else None).
  assert (SC : svd_close eta svd).
  { intros m e k d Q. unfold svd in Q. destruct (M33_dec m (Smat rays)) as [->|]; [|discriminate].
    destruct (HD d Q) as (_ & D2). exact (D2 lam LP (Smat_at_least rays lam N H) K40). }
  assert (EB : best = best_intersection_of_rays (fun x => Some x) (fun x => x) svd rays).
  { unfold best. change (isect svd3_try_new rays = isect svd rays). rewrite !isect_R by exact L.
    unfold my_pinv. rewrite lit_1em7_R. unfold svd3_try_new at 1. rewrite E. unfold svd at 1.
    destruct (M33_dec (Smat rays) (Smat rays)) as [_|NE]; [reflexivity|congruence]. }
  rewrite EB. clear EB best.
  pose proof (C87_lemma svd rays eta lam x E0 SC L N) as C87. cbv zeta in C87.
  set (best := best_intersection_of_rays (fun x => Some x) (fun x => x) svd rays) in *.
  assert (DB : {best = Some (Err SvdFailed)} + {best <> Some (Err SvdFailed)}).
  { destruct best as [[p|[]]|]; first [now left|right; discriminate]. }
  destruct DB as [DB|DB]; [now left|right].
  destruct (C87 ltac:(nra) H M DB) as (x' & EX & DX). exists x'. split; [exact EX|].
  eapply Rle_trans; [exact DX|]. apply Rmult_le_compat_r; [apply vlen_nonneg|].
  unfold Rsqr. apply (Rmult_le_reg_r (lam - eta)); [lra|].
  replace (eta / (lam - eta) * (lam - eta)) with eta by (field; lra).
  apply (Rmult_le_reg_r lam); [exact LP|]. rewrite EL.
  replace (2 / 1000000 * (n / lam * (n / lam)) * (lam - eta) * lam) with (2 / 1000000 * (n * n) * ((lam - eta) / lam)) by (field; lra).
  assert (F : 27 / 40 <= (lam - eta) / lam).
  { apply (Rmult_le_reg_r lam); [exact LP|]. replace ((lam - eta) / lam * lam) with (lam - eta) by (field; lra). lra. }
  assert (0 < n * n) by nra. nra.
Qed.
