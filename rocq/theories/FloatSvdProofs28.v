(** * FloatSvdProofs28.v - the intersection of any rays is a finite point (C121) *)

From Coq Require Import ZArith Reals List Bool Lra Lia Psatz.
From Flocq Require Import Core BinarySingleNaN.
From Verif Require Import Scalar SymEigen Linalg Bundles RayIntersection Spec SpecIsect SpecTri SpecFloatErr SpecFloatIsect SpecSvd SpecFloatSvd SpecFloatSvd2 RealBase VecLemmas ExtrinsicsProofs FloatBase FloatRound FloatErrProofs FloatErrProofs2 FloatApprox FloatDirProofs IsectBase IsectProofs SpectralProofs TriProofs FloatIsectProofs FloatIsectProofs2 FloatIsectProofs3 FloatIsectProofs4 FloatSvdProofs14 FloatSvdProofs22 FloatSvdProofs25 FloatSvdProofs26.
Import ListNotations.
Local Open Scope R_scope.

(** ** The pseudo-inverse with some of the singular values dropped *)
Lemma kept_above (s1 s2 s3 : R) : exists sigma, cutoff < sigma <= 1 /\ (s1 <= cutoff \/ sigma <= s1) /\ (s2 <= cutoff \/ sigma <= s2) /\ (s3 <= cutoff \/ sigma <= s3).
Proof.
  pose proof cutoff_lt as CL. assert (C1 : cutoff < 1) by lra.
  assert (ONE : forall s t, cutoff < t -> exists r, cutoff < r <= t /\ (s <= cutoff \/ r <= s)).
  { intros s t T. destruct (Rle_lt_dec s cutoff) as [L|L]; [exists t; split; [lra|now left]|]. exists (Rmin s t). split; [split; [now apply Rmin_glb_lt|apply Rmin_r]|right; apply Rmin_l]. }
  destruct (ONE s1 1 C1) as (r1 & A1 & B1). destruct (ONE s2 r1 (proj1 A1)) as (r2 & A2 & B2). destruct (ONE s3 r2 (proj1 A2)) as (r3 & A3 & B3).
  exists r3. split; [lra|]. split; [destruct B1; [now left|right; lra]|]. split; [destruct B2; [now left|right; lra]|exact B3].
Qed.

Section Pinv3.
Variables gsin gcos : binary_float 53 1024 -> binary_float 53 1024.
Local Notation F := (binary_float 53 1024).
Local Hint Extern 0 (Ops (binary_float 53 1024)) => exact (B_ops 53 1024 f64_prec f64_emax gsin gcos) : typeclass_instances.
Local Notation v := (bpow radix2 (- (53))).
Variable om : R.
Hypotheses (W1 : v <= om) (W2 : om <= / 2048).
Local Notation app := (FloatApprox.app 53 1024 om).
Variables (sigma : R) (fu fvt : M33 F) (U Vt : M33 R) (fs : V3 F).
Hypotheses (OU : orthogonal U) (OV : orthogonal Vt).
Hypotheses (NU : SpecFloatIsect.mat_near om fu U) (NV : SpecFloatIsect.mat_near om fvt Vt) (FS : vec_finite fs).
Hypotheses (S1 : cutoff < sigma <= 2 ^ 50) (SX : B2R (vx fs) <= cutoff \/ sigma <= B2R (vx fs)) (SY : B2R (vy fs) <= cutoff \/ sigma <= B2R (vy fs)) (SZ : B2R (vz fs) <= cutoff \/ sigma <= B2R (vz fs)).

Lemma inv_w3 x : is_finite x = true -> B2R x <= cutoff \/ sigma <= B2R x -> app (inv_or_zero gsin gcos x) (IsectProofs.finv (B2R x)) (/ sigma) 1.
Proof.
  intros FX [L|L]; [|exact (proj1 (inv_w gsin gcos om W1 sigma S1 x FX L))]. pose proof (sig_pos sigma S1) as SP. assert (I0 : 0 < / sigma) by now apply Rinv_0_lt_compat.
  assert (EB : o_ltb (lit_1em7 : F) x = false).
  { apply not_true_is_false. intros H. apply (fl_ltb 53 1024 f64_prec f64_emax gsin gcos _ _ _ _ (lit_cutoff gsin gcos) (fl_finite _ _ _ FX)) in H. lra. }
  unfold inv_or_zero. rewrite EB. unfold IsectProofs.finv, Rltb. destruct (Rlt_dec cutoff (B2R x)); [lra|]. pose proof (bpow_gt_0 radix2 (- (53))).
  exists 0. split; [exact (fl_zero 53 1024 f64_prec f64_emax gsin gcos)|]. rewrite Rminus_0_r, Rabs_R0. split; [|lra]. apply Rmult_le_pos; lra.
Qed.
Lemma pinv_app3 : exists m, svd_pseudo_inverse (mkSVD (Some fu) fs (Some fvt)) lit_1em7 = Some m /\ mat_app2 om (3 * / sigma) 8 m (pinv_of U (vreal fs) Vt).
Proof.
  unfold svd_pseudo_inverse.
  assert (C : o_ltb (lit_1em7 : F) o_zero = false).
  { apply not_true_is_false. intros H. apply (fl_ltb 53 1024 f64_prec f64_emax gsin gcos _ _ _ _ (lit_cutoff gsin gcos) (fl_zero 53 1024 f64_prec f64_emax gsin gcos)) in H.
    pose proof cutoff_pos. lra. }
  rewrite C. cbn [svd_recompose svd_u svd_s svd_vt bind]. eexists. split; [reflexivity|].
  destruct FS as (FX & FY & FZ).
  pose proof (inv_w3 _ FX SX) as IX. pose proof (inv_w3 _ FY SY) as IY. pose proof (inv_w3 _ FZ SZ) as IZ.
  unfold inv_or_zero in IX, IY, IZ.
  destruct NU as (u00 & u01 & u02 & u10 & u11' & u12 & u20 & u21 & u22). destruct NV as (w00 & w01 & w02 & w10 & w11 & w12 & w20 & w21 & w22).
  destruct (orth_entries U OU) as ((a00 & a01 & a02) & (a10 & a11 & a12) & (a20 & a21 & a22)).
  destruct (orth_entries Vt OV) as ((b00 & b01 & b02) & (b10 & b11 & b12) & (b20 & b21 & b22)).
  assert (Q : pinv_of U (vreal fs) Vt = 
    let a := IsectProofs.finv (B2R (vx fs)) in let b := IsectProofs.finv (B2R (vy fs)) in let c := IsectProofs.finv (B2R (vz fs)) in
    mkM33
     (m00 U * a * m00 Vt + m01 U * b * m10 Vt + m02 U * c * m20 Vt) (m10 U * a * m00 Vt + m11 U * b * m10 Vt + m12 U * c * m20 Vt) (m20 U * a * m00 Vt + m21 U * b * m10 Vt + m22 U * c * m20 Vt)
     (m00 U * a * m01 Vt + m01 U * b * m11 Vt + m02 U * c * m21 Vt) (m10 U * a * m01 Vt + m11 U * b * m11 Vt + m12 U * c * m21 Vt) (m20 U * a * m01 Vt + m21 U * b * m11 Vt + m22 U * c * m21 Vt)
     (m00 U * a * m02 Vt + m01 U * b * m12 Vt + m02 U * c * m22 Vt) (m10 U * a * m02 Vt + m11 U * b * m12 Vt + m12 U * c * m22 Vt) (m20 U * a * m02 Vt + m21 U * b * m12 Vt + m22 U * c * m22 Vt)).
  { unfold pinv_of, vreal. cbn [vx vy vz]. cbv zeta. generalize (IsectProofs.finv (B2R (vx fs))) (IsectProofs.finv (B2R (vy fs))) (IsectProofs.finv (B2R (vz fs))). intros a b c.
    clear. destruct U, Vt. unfold mdiag; apply M33_eq; ru_spec; ring. }
  rewrite Q. cbv zeta. unfold mat_app2. cbn [m33_transpose m33_mul m00 m01 m02 m10 m11 m12 m20 m21 m22 vx vy vz].
  repeat split; apply (row_app2 gsin gcos om W1 W2 sigma S1); first [apply (us_app2 gsin gcos om W1 W2 sigma S1); [apply near_entry2; assumption|assumption]|apply near_entry2; assumption].
Qed.
End Pinv3.

(** ** The computed point *)
Section Main.
Variables (prec emax : Z) (Hp : Prec_gt_0 prec) (He : Prec_lt_emax prec emax).
Variables fsin fcos : binary_float prec emax -> binary_float prec emax.
Variables gsin gcos : binary_float 53 1024 -> binary_float 53 1024.
Local Notation T := (binary_float prec emax).
Local Notation D := (binary_float 53 1024).
Local Hint Extern 0 (Ops (binary_float prec emax)) =>
  exact (B_ops prec emax Hp He fsin fcos) : typeclass_instances.
Local Hint Extern 0 (Ops (binary_float 53 1024)) =>
  exact (B_ops 53 1024 f64_prec f64_emax gsin gcos) : typeclass_instances.
Local Notation u := (bpow radix2 (- prec)).
Local Notation v := (bpow radix2 (- (53))).
Local Notation big := (bpow radix2 emax).
Local Notation tiny := (bpow radix2 (2 - emax)).
Hypotheses (P24 : (24 <= prec <= 53)%Z) (E1024 : (emax <= 1024)%Z).
Variable E : Z.
Hypotheses (E0 : (0 <= E)%Z) (E2 : (2 * E + 34 <= emax)%Z).
Variables (to64 : T -> option D) (from64 : D -> T).
Hypotheses (to64_exact : exact_to64 to64) (from64_rounds : rounds_from64 from64).
Let P11 : (11 <= prec)%Z. Proof. lia. Qed.
Variables (om : R).
Hypotheses (UW : u <= om) (WS : om <= / 16000000).

Section Rays.
Context {C : Type}.
Variables (M : R) (rays : list (Ray C T)).
Hypotheses (M1 : 1 <= M) (NM : INR (length rays) * M <= bpow radix2 E) (N40 : INR (length rays) <= 2 ^ 40)
  (L2 : (2 <= length rays)%nat) (RS : Forall (ray_sized E M) rays).
Local Notation n := (INR (length rays)).

Lemma row_size (x : T) a0 a1 a2 c0 c1 c2 W Wc : 0 <= W * Wc -> near (12.22 * om * (3 * (W * Wc))) x (a0 * c0 + a1 * c1 + a2 * c2) ->
  Rabs a0 <= W -> Rabs a1 <= W -> Rabs a2 <= W -> Rabs c0 <= Wc -> Rabs c1 <= Wc -> Rabs c2 <= Wc -> is_finite x = true /\ Rabs (B2R x) <= 3.001 * (W * Wc).
Proof.
  intros W0 (FX & DX) A0 A1 A2 C0 C1 C2. split; [exact FX|].
  assert (P : forall a c, Rabs a <= W -> Rabs c <= Wc -> Rabs (a * c) <= W * Wc) by (intros a c A K; rewrite Rabs_mult; apply Rmult_le_compat; try apply Rabs_pos; assumption).
  replace (B2R x) with ((B2R x - (a0 * c0 + a1 * c1 + a2 * c2)) + (a0 * c0 + a1 * c1 + a2 * c2)) by ring. eapply Rle_trans; [apply Rabs_triang|].
  assert (Q : Rabs (a0 * c0 + a1 * c1 + a2 * c2) <= 3 * (W * Wc)).
  { eapply Rle_trans; [apply Rabs_triang|]. eapply Rle_trans; [apply Rplus_le_compat_r, Rabs_triang|]. pose proof (P _ _ A0 C0). pose proof (P _ _ A1 C1). pose proof (P _ _ A2 C2). lra. }
  assert (12.22 * om * (3 * (W * Wc)) <= 0.001 * (W * Wc)). { replace (12.22 * om * (3 * (W * Wc))) with (36.66 * om * (W * Wc)) by lra. apply Rmult_le_compat_r; lra. }
  lra.
Qed.
Lemma isect_finite svd eta : (forall S, mat_sized (2 * n) S -> mclose (n * (25 * u + (n + 1) * v)) (mreal S) (Smat (map ray_real rays)) ->
    exists d, svd S true true lit_1em7 100%nat = Some d /\ decomposes64 eta om S d) ->
  exists x, best_intersection_of_rays to64 from64 svd rays = Some (Ok (mkPoints [x])) /\ vec_finite x /\ vlen (vreal x) <= 10 ^ 9 * (n * M).
Proof.
  intros HS.
  pose proof (u_small2 prec P24) as US. pose proof (v_u2 prec P24) as VU.
  assert (N2 : 2 <= n) by (apply (le_INR 2); exact L2).
  set (delta := 25 * u + (n + 1) * v) in *. assert (D0 : 0 < delta) by (unfold delta; nra).
  assert (DS : delta <= / 1000).
  { assert (Q : (n + 1) * v <= / 4000).
    { assert (v2 : v <= / 2 ^ 53) by (simpl; lra). apply Rle_trans with ((2 ^ 40 + 1) * / 2 ^ 53); [apply Rmult_le_compat; lra|]. simpl. lra. }
    unfold delta. lra. }
  pose proof (fun r Hr => ray_terms prec emax Hp He fsin fcos P11 E E0 E2 (C := C) M r (M_le2 prec emax E M rays M1 NM N40 L2) Hr) as RT.
  destruct (sum_S2 prec emax gsin gcos P24 E1024 E E0 E2 to64 to64_exact M rays M1 NM N40 L2 RS t_xx t_xx) as (sxx & Exx & Fxx & Dxx & Bxx); [intros r Hr; apply RT; exact Hr|].
  destruct (sum_S2 prec emax gsin gcos P24 E1024 E E0 E2 to64 to64_exact M rays M1 NM N40 L2 RS t_yy t_yy) as (syy & Eyy & Fyy & Dyy & Byy); [intros r Hr; apply RT; exact Hr|].
  destruct (sum_S2 prec emax gsin gcos P24 E1024 E E0 E2 to64 to64_exact M rays M1 NM N40 L2 RS t_zz t_zz) as (szz & Ezz & Fzz & Dzz & Bzz); [intros r Hr; apply RT; exact Hr|].
  destruct (sum_S2 prec emax gsin gcos P24 E1024 E E0 E2 to64 to64_exact M rays M1 NM N40 L2 RS t_xy t_xy) as (sxy & Exy & Fxy & Dxy & Bxy); [intros r Hr; apply RT; exact Hr|].
  destruct (sum_S2 prec emax gsin gcos P24 E1024 E E0 E2 to64 to64_exact M rays M1 NM N40 L2 RS t_xz t_xz) as (sxz & Exz & Fxz & Dxz & Bxz); [intros r Hr; apply RT; exact Hr|].
  destruct (sum_S2 prec emax gsin gcos P24 E1024 E E0 E2 to64 to64_exact M rays M1 NM N40 L2 RS t_yz t_yz) as (syz & Eyz & Fyz & Dyz & Byz); [intros r Hr; apply RT; exact Hr|].
  destruct (sum_C2 prec emax Hp gsin gcos P24 E1024 E E0 E2 to64 from64 to64_exact from64_rounds M rays M1 NM N40 L2 RS t_cx t_cx) as (scx & Ecx & Fcx & Dcx & Bcx); [intros r Hr; apply RT; exact Hr|].
  destruct (sum_C2 prec emax Hp gsin gcos P24 E1024 E E0 E2 to64 from64 to64_exact from64_rounds M rays M1 NM N40 L2 RS t_cy t_cy) as (scy & Ecy & Fcy & Dcy & Bcy); [intros r Hr; apply RT; exact Hr|].
  destruct (sum_C2 prec emax Hp gsin gcos P24 E1024 E E0 E2 to64 from64 to64_exact from64_rounds M rays M1 NM N40 L2 RS t_cz t_cz) as (scz & Ecz & Fcz & Dcz & Bcz); [intros r Hr; apply RT; exact Hr|].
  fold delta in Dxx, Dyy, Dzz, Dxy, Dxz, Dyz.
  rewrite isect_unfold by exact L2.
  rewrite Exx, Eyy, Ezz, Exy, Exz, Eyz, Ecx, Ecy, Ecz. cbn [bind].
  set (S := mkM33 sxx sxy sxz sxy syy syz sxz syz szz) in *.
  unfold my_pinv.
  assert (SZD : mat_sized (2 * n) S).
  { assert (Q : forall (y : f64) a, is_finite y = true -> Rabs (B2R y - a) <= n * delta -> Rabs a <= n -> sized 0 (2 * n) y).
    { intros y a Fy Dy Sy. split; [exact Fy|]. split; [apply Rabs_pos|]. replace (B2R y) with ((B2R y - a) + a) by ring.
      eapply Rle_trans; [apply tri; eassumption|]. nra. }
    unfold mat_sized, S. cbn [m00 m01 m02 m10 m11 m12 m20 m21 m22]. repeat split; eapply Q; eassumption. }
  assert (MC : mclose (n * delta) (mreal S) (Smat (map ray_real rays))).
  { unfold mclose, mreal, S, Smat. cbn [m00 m01 m02 m10 m11 m12 m20 m21 m22]. repeat split; assumption. }
  destruct (HS S SZD MC) as (d & Es & fu & fvt & U & Vt & Eu & Ev & OU & OV & NU & NV & FS & _ & _ & _ & _).
  destruct (kept_above (B2R (vx (svd_s d))) (B2R (vy (svd_s d))) (B2R (vz (svd_s d)))) as (sigma & SG1 & S1 & S2 & S3).
  assert (SG : cutoff < sigma <= 2 ^ 50). { assert (1 <= 2 ^ 50) by (simpl; lra). lra. }
  assert (Edd : d = mkSVD (Some fu) (svd_s d) (Some fvt)) by (destruct d; cbn in *; congruence).
  destruct (pinv_app3 gsin gcos om (V_OM prec P24 om UW) (W11 om WS) sigma fu fvt U Vt (svd_s d) OU OV NU NV FS SG S1 S2 S3) as (P & EP & AP).
  rewrite <- Edd in EP. rewrite Es, EP. cbn [bind]. clear HS.
  eexists. split; [reflexivity|].
  pose proof (sig_pos sigma SG) as SP0. assert (I1 : 1 <= / sigma) by (rewrite <- Rinv_1; apply Rinv_le_contravar; lra).
  assert (I24 : / sigma <= 2 ^ 24) by (apply (isig sigma SG)).
  assert (BE : 2 ^ 33 * bpow radix2 E <= big).
  { replace (2 ^ 33) with (bpow radix2 33) by (simpl; lra). rewrite <- bpow_plus. apply bpow_le. lia. }
  assert (nM : 2 <= n * M) by nra. assert (NM' : n * M <= bpow radix2 E) by exact NM.
  assert (T1 : tiny <= 3 * / sigma). { apply Rle_trans with 1; [apply (bpow_le radix2 _ 0); lia|lra]. }
  assert (BG : 10 * / sigma < big).
  { assert (10 * 2 ^ 24 < 2 ^ 33) by (simpl; lra). pose proof (bpow_le radix2 0 E E0) as B0. simpl (bpow radix2 0) in B0. lra. }
  set (W := 3 * / sigma * (3.01 * (n * M))).
  assert (W18 : 18 <= W) by (unfold W; apply Rle_trans with (3 * 1 * (3.01 * 2)); [lra|apply Rmult_le_compat; lra]).
  assert (TW : tiny <= W) by (apply Rle_trans with 1; [apply (bpow_le radix2 _ 0); lia|lra]).
  assert (WL : W <= 3 * 2 ^ 24 * (3.01 * (n * M))) by (unfold W; apply Rmult_le_compat_r; lra).
  assert (BW : 12 * W < big).
  { assert (109 * 2 ^ 24 < 2 ^ 33) by (simpl; lra). pose proof (bpow_gt_0 radix2 E). lra. }
  destruct AP as (A00 & A01 & A02 & A10 & A11 & A12 & A20 & A21 & A22).
  pose proof (fun y a => entry_T2 prec emax Hp P24 from64 from64_rounds om UW WS sigma y a T1 BG) as ET.
  pose proof (ET _ _ A00) as Q00. pose proof (ET _ _ A01) as Q01. pose proof (ET _ _ A02) as Q02.
  pose proof (ET _ _ A10) as Q10. pose proof (ET _ _ A11) as Q11. pose proof (ET _ _ A12) as Q12.
  pose proof (ET _ _ A20) as Q20. pose proof (ET _ _ A21) as Q21. pose proof (ET _ _ A22) as Q22.
  pose proof (mulv_row2 prec emax Hp He fsin fcos om UW WS sigma _ _ _ _ _ _ _ _ _ _ Q00 Q01 Q02 Fcx Fcy Fcz Bcx Bcy Bcz TW BW) as R0.
  pose proof (mulv_row2 prec emax Hp He fsin fcos om UW WS sigma _ _ _ _ _ _ _ _ _ _ Q10 Q11 Q12 Fcx Fcy Fcz Bcx Bcy Bcz TW BW) as R1.
  pose proof (mulv_row2 prec emax Hp He fsin fcos om UW WS sigma _ _ _ _ _ _ _ _ _ _ Q20 Q21 Q22 Fcx Fcy Fcz Bcx Bcy Bcz TW BW) as R2.
  assert (AS : forall (y : D) a, FloatApprox.app 53 1024 om y a (3 * / sigma) 8 -> Rabs a <= 3 * / sigma) by (intros y a (r & _ & _ & H); exact H).
  apply row_size in R0; [|fold W; lra|eapply AS; eassumption..|assumption|assumption|assumption].
  apply row_size in R1; [|fold W; lra|eapply AS; eassumption..|assumption|assumption|assumption].
  apply row_size in R2; [|fold W; lra|eapply AS; eassumption..|assumption|assumption|assumption].
  fold W in R0, R1, R2. destruct R0 as (R0 & V0), R1 as (R1 & V1), R2 as (R2 & V2).
  split; [now repeat split|].
  apply Rle_trans with (1.75 * (3.001 * W)); [apply vlen_bound; [lra|exact V0|exact V1|exact V2]|].
  assert (1.75 * (3.001 * (3 * 2 ^ 24 * 3.01)) <= 10 ^ 9) by (simpl; lra).
  apply Rle_trans with (1.75 * (3.001 * (3 * 2 ^ 24 * (3.01 * (n * M))))); [lra|]. 
  replace (1.75 * (3.001 * (3 * 2 ^ 24 * (3.01 * (n * M))))) with (1.75 * (3.001 * (3 * 2 ^ 24 * 3.01)) * (n * M)) by ring. apply Rmult_le_compat_r; lra.
Qed.
End Rays.
End Main.
