(** * FloatJacProofs2.v - lemmas behind C100 and C101 *)

From Coq Require Import ZArith Reals List Bool Lra Lia Psatz.
From Flocq Require Import Core BinarySingleNaN.
From Verif Require Import Scalar Linalg Bundles Extrinsics Perspective Camera Linearize Rows Spec SpecFloatErr SpecFloatMat RealBase VecLemmas ExtrinsicsProofs FloatBase FloatRound FloatErrProofs FloatApprox FloatRigidProofs FloatProjProofs FloatJacProofs FloatWorldProofs FloatErrProofs2.
Import ListNotations.
Local Open Scope R_scope.

(** ** Derivatives *)
Lemma lin_quot_deriv a0 a1 b0 b1 cx l (f : R -> R) : b0 <> 0 -> (forall t, f t = (a0 + t * a1) / (b0 + t * b1) + cx) ->
  l = (a1 * b0 - a0 * b1) / (b0 * b0) -> derivable_pt_lim f 0 l.
Proof.
  intros B E ->.
  assert (L : forall a b, derivable_pt_lim (fun t => a + t * b) 0 b).
  { intros a b eps He. exists (mkposreal 1 Rlt_0_1). intros h H0 _.
    replace ((a + (0 + h) * b - (a + 0 * b)) / h - b) with 0 by (field; exact H0). now rewrite Rabs_R0. }
  intros eps He. destruct (derivable_pt_lim_plus (div_fct (fun t => a0 + t * a1) (fun t => b0 + t * b1)) (fct_cte cx) 0
    ((a1 * (b0 + 0 * b1) - b1 * (a0 + 0 * a1)) / Rsqr (b0 + 0 * b1)) 0) with (eps := eps) as (delta & H).
  - apply (derivable_pt_lim_div (fun t => a0 + t * a1) (fun t => b0 + t * b1) 0 a1 b1 (L a0 a1) (L b0 b1)). lra.
  - apply derivable_pt_lim_const.
  - exact He.
  - exists delta. intros h H0 H1. specialize (H h H0 H1). rewrite !E.
    replace ((a1 * b0 - a0 * b1) / (b0 * b0)) with ((a1 * (b0 + 0 * b1) - b1 * (a0 + 0 * a1)) / Rsqr (b0 + 0 * b1) + 0) by (unfold Rsqr; field; lra).
    exact H.
Qed.

Section Jac.
Variables (prec emax : Z) (Hp : Prec_gt_0 prec) (He : Prec_lt_emax prec emax).
Variables fsin fcos : binary_float prec emax -> binary_float prec emax.
Local Notation F := (binary_float prec emax).
Local Hint Extern 0 (Ops (binary_float prec emax)) =>
  exact (B_ops prec emax Hp He fsin fcos) : typeclass_instances.
Variable u : R.
Local Notation big := (bpow radix2 emax).
Local Notation flr := (fl prec emax).
Local Notation app := (app prec emax u).
Hypotheses (UR : bpow radix2 (- prec) <= u) (U11 : u <= / 2048) (E17 : (17 <= emax)%Z).
Local Notation u_pos := (ud_pos prec u UR).

(** the exact matrix and the exact projection *)
Lemma hrow_D (k : PerspectiveParams F) q c x : let X := exact_matrix k q c in
  hrow (p20 X) (p21 X) (p22 X) (p23 X) x = vz (to_camera q c x).
Proof.
  cbv zeta. unfold exact_matrix, to_camera, kreal. generalize (rotm q). intros [a b d e f g h i j]. destruct c as [c1 c2 c3], x as [x1 x2 x3].
  unfold hrow, hstack, mm, vdot, mrow0, mrow1, mrow2, mcol0, mcol1, mcol2, mv, kmat, vopp, vsub. cbn [p20 p21 p22 p23 vx vy vz m00 m01 m02 m10 m11 m12 m20 m21 m22]. ring.
Qed.
Lemma hrow_u (k : PerspectiveParams F) q c x : let X := exact_matrix k q c in let y := to_camera q c x in
  hrow (p00 X) (p01 X) (p02 X) (p03 X) x = B2R (pp_fx k) * vx y + B2R (pp_skew k) * vy y + B2R (pp_cx k) * vz y.
Proof.
  cbv zeta. unfold exact_matrix, to_camera, kreal. generalize (rotm q). intros [a b d e f g h i j]. destruct c as [c1 c2 c3], x as [x1 x2 x3].
  unfold hrow, hstack, mm, vdot, mrow0, mrow1, mrow2, mcol0, mcol1, mcol2, mv, kmat, vopp, vsub. cbn [p00 p01 p02 p03 vx vy vz m00 m01 m02 m10 m11 m12 m20 m21 m22]. ring.
Qed.
Lemma hrow_v (k : PerspectiveParams F) q c x : let X := exact_matrix k q c in let y := to_camera q c x in
  hrow (p10 X) (p11 X) (p12 X) (p13 X) x = B2R (pp_fy k) * vy y + B2R (pp_cy k) * vz y.
Proof.
  cbv zeta. unfold exact_matrix, to_camera, kreal. generalize (rotm q). intros [a b d e f g h i j]. destruct c as [c1 c2 c3], x as [x1 x2 x3].
  unfold hrow, hstack, mm, vdot, mrow0, mrow1, mrow2, mcol0, mcol1, mcol2, mv, kmat, vopp, vsub. cbn [p10 p11 p12 p13 vx vy vz m00 m01 m02 m10 m11 m12 m20 m21 m22]. ring.
Qed.
Lemma pinhole_quot (k : PerspectiveParams F) q c x : let X := exact_matrix k q c in vz (to_camera q c x) <> 0 ->
  hrow (p00 X) (p01 X) (p02 X) (p03 X) x / hrow (p20 X) (p21 X) (p22 X) (p23 X) x = px (pinhole k (to_camera q c x)) /\
  hrow (p10 X) (p11 X) (p12 X) (p13 X) x / hrow (p20 X) (p21 X) (p22 X) (p23 X) x = py (pinhole k (to_camera q c x)).
Proof. intros X H. unfold X. rewrite hrow_D, hrow_u, hrow_v. unfold pinhole. cbn [px py]. split; field; exact H. Qed.

(** the exact derivatives: [o] is a direction *)
Lemma pinhole_deriv (k : PerspectiveParams F) q c x o : let X := exact_matrix k q c in
  let D := hrow (p20 X) (p21 X) (p22 X) (p23 X) x in
  let Nu := hrow (p00 X) (p01 X) (p02 X) (p03 X) x in let Nv := hrow (p10 X) (p11 X) (p12 X) (p13 X) x in
  let row a b e := a * vx o + b * vy o + e * vz o in D <> 0 ->
  derivable_pt_lim (fun t => px (pinhole k (to_camera q c (vadd x (vscl t o))))) 0
    (- row (p20 X) (p21 X) (p22 X) * Nu / (D * D) + row (p00 X) (p01 X) (p02 X) / D) /\
  derivable_pt_lim (fun t => py (pinhole k (to_camera q c (vadd x (vscl t o))))) 0
    (- row (p20 X) (p21 X) (p22 X) * Nv / (D * D) + row (p10 X) (p11 X) (p12 X) / D).
Proof.
  intros X D Nu Nv row H. unfold D, Nu, Nv, X in *. rewrite hrow_D, hrow_u, hrow_v in *. unfold row. clear D Nu Nv X row.
  assert (TC : forall t, to_camera q c (vadd x (vscl t o)) = vadd (to_camera q c x) (vscl t (mv (rotm q) o))).
  { intros t. unfold to_camera. generalize (rotm q). intros m. destruct m, x, o, c. vring. }
  set (y := to_camera q c x) in *. set (z := mv (rotm q) o) in *.
  assert (R2 : p20 (exact_matrix k q c) * vx o + p21 (exact_matrix k q c) * vy o + p22 (exact_matrix k q c) * vz o = vz z).
  { unfold z, exact_matrix, hstack, mm, vdot, mrow0, mrow1, mrow2, mcol0, mcol1, mcol2, mv, kreal, kmat. cbn [p20 p21 p22 vx vy vz m00 m01 m02 m10 m11 m12 m20 m21 m22]. ring. }
  assert (R0 : p00 (exact_matrix k q c) * vx o + p01 (exact_matrix k q c) * vy o + p02 (exact_matrix k q c) * vz o
    = B2R (pp_fx k) * vx z + B2R (pp_skew k) * vy z + B2R (pp_cx k) * vz z).
  { unfold z, exact_matrix, hstack, mm, vdot, mrow0, mrow1, mrow2, mcol0, mcol1, mcol2, mv, kreal, kmat. cbn [p00 p01 p02 vx vy vz m00 m01 m02 m10 m11 m12 m20 m21 m22]. ring. }
  assert (R1 : p10 (exact_matrix k q c) * vx o + p11 (exact_matrix k q c) * vy o + p12 (exact_matrix k q c) * vz o
    = B2R (pp_fy k) * vy z + B2R (pp_cy k) * vz z).
  { unfold z, exact_matrix, hstack, mm, vdot, mrow0, mrow1, mrow2, mcol0, mcol1, mcol2, mv, kreal, kmat. cbn [p10 p11 p12 vx vy vz m00 m01 m02 m10 m11 m12 m20 m21 m22]. ring. }
  rewrite R0, R1, R2. clear R0 R1 R2. clearbody y z. split.
  - apply (lin_quot_deriv (B2R (pp_fx k) * vx y + B2R (pp_skew k) * vy y) (B2R (pp_fx k) * vx z + B2R (pp_skew k) * vy z) (vz y) (vz z) (B2R (pp_cx k))); [exact H| |field; exact H].
    intros t. rewrite TC. unfold pinhole, vadd, vscl. cbn [px vx vy vz]. f_equal. f_equal. ring.
  - apply (lin_quot_deriv (B2R (pp_fy k) * vy y) (B2R (pp_fy k) * vy z) (vz y) (vz z) (B2R (pp_cy k))); [exact H| |field; exact H].
    intros t. rewrite TC. unfold pinhole, vadd, vscl. cbn [py vx vy vz]. f_equal. f_equal. ring.
Qed.

Section Cam.
Variables (k : PerspectiveParams F) (qh : Quat F) (q : Quat R) (c : V3 F) (M P d0 : R).
Hypotheses (U : unit_quat q) (N : quat_near (8 * u) qh q) (C : vec_sized M c) (M1 : 1 <= M) (K : persp_sized P k) (P1 : 1 <= P).
Hypotheses (B1 : 4096 * P * M * M < big) (B3 : 4096 * P * M * M < big * (d0 * d0)).
Hypotheses (d01 : 0 < d0) (dz : d0 <= Rabs (vz (mv (rotm q) (vreal c)))) (Wd0 : 40000 * u * M <= d0).
Local Notation cam := (camera_new (perspective_from k) (from_rotation_and_camcenter qh c)).

Lemma p23_exact : p23 (exact_matrix k q (vreal c)) = - vz (mv (rotm q) (vreal c)).
Proof. unfold exact_matrix. destruct (mv (rotm q) (vreal c)) as [a b e]. unfold hstack, mv, kreal, kmat, vopp. cbn [p23 vx vy vz m00 m01 m02 m10 m11 m12 m20 m21 m22]. ring. Qed.

Lemma div_self (x : F) r : flr x r -> r <> 0 -> flr (o_div x x) 1.
Proof.
  intros X R. pose proof (fl_div prec emax Hp He fsin fcos x x r r X X R) as H.
  replace (r / r) with 1 in H by (field; exact R). rewrite rnd_id in H by (assumption || apply (fl_fmt _ _ _ _ (fl_one prec emax Hp He fsin fcos))).
  apply H. rewrite Rabs_R1. apply (bpow_lt radix2 0). lia.
Qed.

Lemma C100_lemma :
  matrix_near (1300 * u * (P / d0) * (M / d0)) (3100 * u * P * (M / d0) * (M / d0)) (as_camera_matrix cam)
    (exact_matrix k q (vreal c)) (- vz (mv (rotm q) (vreal c))) /\
  B2R (p23 (as_camera_matrix cam)) = 1.
Proof.
  pose proof (norm_apps prec emax Hp He fsin fcos u UR U11 E17 k qh q c M P d0 U N C M1 K P1 B1 B3 d01 dz Wd0) as RA.
  pose proof (raw_apps prec emax Hp He fsin fcos u UR U11 E17 k qh q c M P U N C M1 K P1 B1) as RB.
  destruct (scale_facts prec emax Hp He fsin fcos u UR U11 E17 k qh q c M P d0 U N C M1 K P1 B1 d01 dz Wd0) as (F1 & F0 & F2 & F3).
  split.
  2: { rewrite camera_matrix_eq. cbv zeta. unfold m34_div, m34_map. cbn [p23].
       apply (div_self _ _ F1). intros H. rewrite H, Rabs_R0 in F2. lra. }
  pose proof (proj1 (tz_le prec emax k q c M d0 U C dz)) as TL.
  rewrite <- p23_exact in *.
  assert (dz' : d0 <= Rabs (p23 (exact_matrix k q (vreal c)))) by (rewrite p23_exact, Rabs_Ropp; exact dz).
  revert RA RB F0 F2 F3 TL dz'.
  generalize (B2R (p23 (m33_mul34 (as_intrinsics_matrix (perspective_from k)) (matrix (from_rotation_and_camcenter qh c))))).
  generalize (as_camera_matrix cam). generalize (m33_mul34 (as_intrinsics_matrix (perspective_from k)) (matrix (from_rotation_and_camcenter qh c))).
  generalize (exact_matrix k q (vreal c)). intros X raw m s RA RB F0 F2 F3 TL dz'.
  pose proof u_pos as U0.
  assert (SN : s <> 0) by (intros H; rewrite H, Rabs_R0 in F2; lra).
  unfold matrix_near. generalize dependent (p23 X). intros t RA RB F0 TL dz'.
  assert (TN : t <> 0) by (intros H; rewrite H, Rabs_R0 in dz'; lra).
  set (i := / d0). assert (i0 : 0 < i) by now apply Rinv_0_lt_compat.
  assert (Mi : 1 <= 2 * (M * i)).
  { apply Rmult_le_reg_r with d0; [exact d01|]. unfold i. replace (2 * (M * / d0) * d0) with (2 * M) by (field; lra). lra. }
  assert (IS : / Rabs s <= 1.011 * i).
  { apply Rle_trans with (/ (0.99 * d0)); [apply Rinv_le_contravar; lra|]. rewrite Rinv_mult. fold i. lra. }
  assert (GO : forall p a W kk, app p (a / s) (W / Rabs s) kk -> Rabs a <= W -> 0 <= W -> 0 <= kk ->
    near (1.011 * (2 * kk + 250.8) * u * W * i * (M * i)) p (a / t)).
  { intros p a W kk (r & (R1 & R2) & R3 & _) L W0 K0. split; [exact R1|]. rewrite R2.
    replace (r - a / t) with ((r - a / s) + (a / t) * (t - s) / s) by (field; split; assumption).
    assert (Y : Rabs (a / t) <= W * i) by (unfold i; apply dv; assumption).
    assert (Z : Rabs ((a / t) * (t - s) / s) <= W * i * (250.8 * u * M) * (1.011 * i)).
    { unfold Rdiv at 1. rewrite Rabs_mult, Rabs_inv. apply Rmult_le_compat; [apply Rabs_pos|left; apply Rinv_0_lt_compat; now apply Rabs_pos_lt| |exact IS].
      apply mu; [exact Y|]. now rewrite Rabs_minus_sym. }
    eapply Rle_trans; [apply tri; [exact R3|exact Z]|].
    set (y := u * W * i). assert (Y0 : 0 <= y) by (unfold y; repeat apply Rmult_le_pos; lra).
    assert (V : kk * u * (W / Rabs s) <= 1.011 * kk * y).
    { unfold y, Rdiv. replace (1.011 * kk * (u * W * i)) with (kk * u * (W * (1.011 * i))) by ring.
      apply Rmult_le_compat_l; [apply Rmult_le_pos; lra|]. now apply Rmult_le_compat_l. }
    replace (W * i * (250.8 * u * M) * (1.011 * i)) with (250.8 * 1.011 * (M * i) * y) by (unfold y; ring).
    replace (1.011 * (2 * kk + 250.8) * u * W * i * (M * i)) with (1.011 * (2 * (M * i)) * (kk * y) + 1.011 * 250.8 * (M * i) * y) by (unfold y; ring).
    assert (0 <= kk * y) by (apply Rmult_le_pos; lra).
    assert (kk * y <= 2 * (M * i) * (kk * y)) by (rewrite <- (Rmult_1_l (kk * y)) at 1; apply Rmult_le_compat_r; lra). lra. }
  destruct RA as ((A0 & A1 & A2 & A3) & (A4 & A5 & A6 & A7) & (A8 & A9 & A10 & A11)).
  destruct RB as ((D0 & D1 & D2 & D3) & (D4 & D5 & D6 & D7) & (D8 & D9 & D10 & D11)).
  apply app_bound in D0, D1, D2, D3, D4, D5, D6, D7, D8, D9, D10, D11.
  assert (Pi0 : 0 < u * P * i * (M * i)) by (repeat apply Rmult_lt_0_compat; lra).
  assert (L1 : forall p a, app p (a / s) (3 * P / Rabs s) 84.65 -> Rabs a <= 3 * P -> near (1300 * u * (P / d0) * (M / d0)) p (a / t)).
  { intros p a AP L. eapply near_weak; [apply (GO _ _ _ _ AP L); lra|]. unfold Rdiv. fold i. lra. }
  assert (L2 : forall p a, app p (a / s) (1 / Rabs s) 81.5 -> Rabs a <= 1 -> near (1300 * u * (P / d0) * (M / d0)) p (a / t)).
  { intros p a AP L. eapply near_weak; [apply (GO _ _ _ _ AP L); lra|]. unfold Rdiv. fold i.
    assert (u * 1 * i * (M * i) <= u * P * i * (M * i)) by (repeat (apply Rmult_le_compat_r; [lra|]); apply Rmult_le_compat_l; lra). lra. }
  assert (PMM : 0 < u * P * M * i * (M * i)) by (repeat apply Rmult_lt_0_compat; lra).
  assert (L3 : forall p a, app p (a / s) (6 * P * M / Rabs s) 129.9 -> Rabs a <= 6 * P * M -> near (3100 * u * P * (M / d0) * (M / d0)) p (a / t)).
  { intros p a AP L. assert (0 < P * M) by (apply Rmult_lt_0_compat; lra). eapply near_weak; [apply (GO _ _ _ _ AP L); lra|]. unfold Rdiv. fold i. lra. }
  assert (L4 : forall p a, app p (a / s) (2 * M / Rabs s) 126.5 -> Rabs a <= 2 * M -> near (3100 * u * P * (M / d0) * (M / d0)) p (a / t)).
  { intros p a AP L. eapply near_weak; [apply (GO _ _ _ _ AP L); lra|]. unfold Rdiv. fold i.
    assert (u * 1 * M * i * (M * i) <= u * P * M * i * (M * i)) by (repeat (apply Rmult_le_compat_r; [lra|]); apply Rmult_le_compat_l; lra). lra. }
  split; [|split]; (split; [|split; [|split]]).
  - now apply L1. - now apply L1. - now apply L1. - now apply L3.
  - now apply L1. - now apply L1. - now apply L1. - now apply L3.
  - now apply L2. - now apply L2. - now apply L2. - now apply L4.
Qed.

Lemma C101_lemma x d : vec_sized M x -> 0 < d -> 40000 * u * M <= d -> 4096 * P * M * M < big * (d * d) ->
  d <= Rabs (vz (to_camera q (vreal c) (vreal x))) -> pix_within P (pinhole k (to_camera q (vreal c) (vreal x))) ->
  let J := linearize_at (jacobian_cache_new cam) x in
  let f y := pinhole k (to_camera q (vreal c) y) in
  let e := 7000 * u * (P / d) * (M / d) in
  derivative_near e (j00 J) (fun y => px (f y)) (vreal x) (mkV3 1 0 0) /\
  derivative_near e (j01 J) (fun y => px (f y)) (vreal x) (mkV3 0 1 0) /\
  derivative_near e (j02 J) (fun y => px (f y)) (vreal x) (mkV3 0 0 1) /\
  derivative_near e (j10 J) (fun y => py (f y)) (vreal x) (mkV3 1 0 0) /\
  derivative_near e (j11 J) (fun y => py (f y)) (vreal x) (mkV3 0 1 0) /\
  derivative_near e (j12 J) (fun y => py (f y)) (vreal x) (mkV3 0 0 1).
Proof.
  intros XM d1 Wd B2 DD (QX & QY). cbv zeta.
  change (jacobian_cache_new cam) with (as_camera_matrix cam).
  assert (DN : vz (to_camera q (vreal c) (vreal x)) <> 0) by (intros H; rewrite H, Rabs_R0 in DD; lra).
  pose proof (pinhole_quot k q (vreal c) (vreal x) DN) as (PX & PY). rewrite <- PX in QX. rewrite <- PY in QY.
  pose proof (hrow_D k q (vreal c) (vreal x)) as HD. cbv zeta in HD.
  assert (D4 : Rabs (vz (to_camera q (vreal c) (vreal x))) <= 4 * M).
  { unfold to_camera. replace (4 * M) with (2 * (M + M)) by ring. apply orth_vle; [now apply rotm_orthogonal|]. apply vle_vsub; now apply vec_sized_vle. }
  rewrite <- HD in DD, D4, DN.
  pose proof (jac_near prec emax Hp He fsin fcos u UR U11 E17 k qh q c M P d0 U N C M1 K P1 B1 B3 d01 dz Wd0 x d XM d1 Wd B2 DD D4 QX QY) as ((J0 & J1 & J2) & (J3 & J4 & J5)).
  pose proof (pinhole_deriv k q (vreal c) (vreal x) (mkV3 1 0 0) DN) as (U1 & V1).
  pose proof (pinhole_deriv k q (vreal c) (vreal x) (mkV3 0 1 0) DN) as (U2 & V2).
  pose proof (pinhole_deriv k q (vreal c) (vreal x) (mkV3 0 0 1) DN) as (U3 & V3').
  cbv zeta in U1, U2, U3, V1, V2, V3'. cbn [vx vy vz] in U1, U2, U3, V1, V2, V3'.
  assert (S1 : forall a b e : R, a * 1 + b * 0 + e * 0 = a) by (intros; ring).
  assert (S2 : forall a b e : R, a * 0 + b * 1 + e * 0 = b) by (intros; ring).
  assert (S3 : forall a b e : R, a * 0 + b * 0 + e * 1 = e) by (intros; ring).
  rewrite !S1 in U1, V1. rewrite !S2 in U2, V2. rewrite !S3 in U3, V3'.
  split; [exact (ex_intro _ _ (conj U1 J0))|]. split; [exact (ex_intro _ _ (conj U2 J1))|]. split; [exact (ex_intro _ _ (conj U3 J2))|].
  split; [exact (ex_intro _ _ (conj V1 J3))|]. split; [exact (ex_intro _ _ (conj V2 J4))|exact (ex_intro _ _ (conj V3' J5))].
Qed.
End Cam.
End Jac.

Section F64.
Variables fsin fcos : f64 -> f64.
Local Hint Extern 0 (Ops f64) => exact (f64_ops fsin fcos) : typeclass_instances.
Local Notation u := (bpow radix2 (- (53))).
Lemma matrix_near_weak {prec emax} e1 e2 e1' e2' (p : M34 (binary_float prec emax)) x s : matrix_near e1 e2 p x s -> e1 <= e1' -> e2 <= e2' -> matrix_near e1' e2' p x s.
Proof.
  intros ((A0 & A1 & A2 & A3) & (A4 & A5 & A6 & A7) & (A8 & A9 & A10 & A11)) L1 L2.
  split; [|split]; (split; [|split; [|split]]); eapply near_weak; eassumption.
Qed.
Lemma derivative_near_weak {prec emax} e e' (j : binary_float prec emax) f x o : derivative_near e j f x o -> e <= e' -> derivative_near e' j f x o.
Proof. intros (l & D & N) L. exists l. split; [exact D|]. eapply near_weak; eassumption. Qed.

Lemma C100b_lemma (qh : Quat f64) q c (k : PerspectiveParams f64) : unit_quat q -> quat_near (8 * u) qh q ->
  vec_sized 100 c -> persp_sized 10000 k -> 1 <= Rabs (vz (mv (rotm q) (vreal c))) ->
  matrix_near (2 / 10000000) (4 / 100000) (as_camera_matrix (camera_new (perspective_from k) (from_rotation_and_camcenter qh c)))
    (exact_matrix k q (vreal c)) (- vz (mv (rotm q) (vreal c))).
Proof.
  intros U N C K D. pose proof u_f64. pose proof u_f64'.
  assert (B : 4096 * 10000 * 100 * 100 < bpow radix2 1024) by (apply big_f64; lra).
  assert (B' : 4096 * 10000 * 100 * 100 < bpow radix2 1024 * (1 * 1)) by (rewrite !Rmult_1_r; apply big_f64; lra).
  pose proof (proj1 (C100_lemma 53 1024 f64_prec f64_emax fsin fcos _ (Rle_refl _) (u11 53 ltac:(lia)) ltac:(lia) k qh q c 100 10000 1 U N C ltac:(lra) K ltac:(lra) B B' ltac:(lra) D ltac:(lra))) as H1.
  assert (L1 : 1300 * u * (10000 / 1) * (100 / 1) <= 2 / 10000000) by lra.
  assert (L2 : 3100 * u * 10000 * (100 / 1) * (100 / 1) <= 4 / 100000) by lra.
  exact (matrix_near_weak _ _ _ _ _ _ _ H1 L1 L2).
Qed.
Lemma C101b_lemma (qh : Quat f64) q c (k : PerspectiveParams f64) x : unit_quat q -> quat_near (8 * u) qh q ->
  vec_sized 100 c -> persp_sized 10000 k -> 1 <= Rabs (vz (mv (rotm q) (vreal c))) -> vec_sized 100 x ->
  1 <= Rabs (vz (to_camera q (vreal c) (vreal x))) -> pix_within 10000 (pinhole k (to_camera q (vreal c) (vreal x))) ->
  let J := linearize_at (jacobian_cache_new (camera_new (perspective_from k) (from_rotation_and_camcenter qh c))) x in
  let f y := pinhole k (to_camera q (vreal c) y) in
  let e := 8 / 10000000 in
  derivative_near e (j00 J) (fun y => px (f y)) (vreal x) (mkV3 1 0 0) /\
  derivative_near e (j01 J) (fun y => px (f y)) (vreal x) (mkV3 0 1 0) /\
  derivative_near e (j02 J) (fun y => px (f y)) (vreal x) (mkV3 0 0 1) /\
  derivative_near e (j10 J) (fun y => py (f y)) (vreal x) (mkV3 1 0 0) /\
  derivative_near e (j11 J) (fun y => py (f y)) (vreal x) (mkV3 0 1 0) /\
  derivative_near e (j12 J) (fun y => py (f y)) (vreal x) (mkV3 0 0 1).
Proof.
  intros U N C K D X DX PW. pose proof u_f64. pose proof u_f64'.
  assert (B : 4096 * 10000 * 100 * 100 < bpow radix2 1024) by (apply big_f64; lra).
  assert (B' : 4096 * 10000 * 100 * 100 < bpow radix2 1024 * (1 * 1)) by (rewrite !Rmult_1_r; apply big_f64; lra).
  pose proof (C101_lemma 53 1024 f64_prec f64_emax fsin fcos _ (Rle_refl _) (u11 53 ltac:(lia)) ltac:(lia) k qh q c 100 10000 1 U N C ltac:(lra) K ltac:(lra) B B' ltac:(lra) D ltac:(lra)
    x 1 X ltac:(lra) ltac:(lra) B' DX PW) as H1.
  cbv zeta in H1. cbv zeta.
  assert (L1 : 7000 * u * (10000 / 1) * (100 / 1) <= 8 / 10000000) by lra.
  destruct H1 as (A0 & A1 & A2 & A3 & A4 & A5).
  split; [exact (derivative_near_weak _ _ _ _ _ _ A0 L1)|]. split; [exact (derivative_near_weak _ _ _ _ _ _ A1 L1)|].
  split; [exact (derivative_near_weak _ _ _ _ _ _ A2 L1)|]. split; [exact (derivative_near_weak _ _ _ _ _ _ A3 L1)|].
  split; [exact (derivative_near_weak _ _ _ _ _ _ A4 L1)|exact (derivative_near_weak _ _ _ _ _ _ A5 L1)].
Qed.
End F64.
