(** * FloatSvdProofs23.v - intersection of rays and triangulation never report a failed decomposition (C114) *)

From Coq Require Import ZArith Reals List Bool Lra Lia Psatz.
From Flocq Require Import Core BinarySingleNaN.
From Verif Require Import Scalar SymEigen Linalg Bundles Extrinsics Perspective Orthographic Camera RayIntersection Rows Convert Spec SpecGeom SpecIsect SpecTri SpecFloatErr SpecFloatIsect SpecFloatTri SpecSvd SpecFloatSvd SpecFloatSvd2 RealBase VecLemmas ExtrinsicsProofs IsectBase IsectProofs SpectralProofs TriProofs SymEigenProofs6 FloatBase FloatRound FloatErrProofs FloatErrProofs2 FloatApprox FloatRigidProofs FloatProjProofs FloatDirProofs FloatIsectProofs FloatIsectProofs2 FloatIsectProofs3 FloatIsectProofs4 FloatIsectProofs5 FloatViewProofs FloatWorldProofs FloatTriProofs FloatTriProofs2 FloatTriProofs3 FloatSvdProofs14 FloatSvdProofs15 FloatSvdProofs16 FloatSvdProofs22.
Import ListNotations.

Section Main.
Variables (prec emax : Z) (Hp : Prec_gt_0 prec) (He : Prec_lt_emax prec emax).
Variables fsin fcos : binary_float prec emax -> binary_float prec emax.
Variables gsin gcos : binary_float 53 1024 -> binary_float 53 1024.
Local Notation T := (binary_float prec emax).
Local Notation D := (binary_float 53 1024).
Local Hint Extern 0 (Ops (binary_float prec emax)) =>
  exact (B_ops prec emax Hp He fsin fcos) : typeclass_instances.
Local Hint Extern 0 (Ops (binary_float 53 1024)) =>
  exact (B_ops 53 1024 f64_prec f64_emax gsin gcos) : typeclass_instances.
Local Open Scope R_scope.
Local Notation u := (bpow radix2 (- prec)).
Local Notation v := (bpow radix2 (- (53))).
Local Notation big := (bpow radix2 emax).
Local Notation tiny := (bpow radix2 (2 - emax)).
Hypotheses (P24 : (24 <= prec <= 53)%Z) (E1024 : (emax <= 1024)%Z).
Variable E : Z.
Hypotheses (E0 : (0 <= E)%Z) (E2 : (2 * E + 34 <= emax)%Z).
Variables (to64 : T -> option D) (from64 : D -> T).
Hypotheses (to64_exact : exact_to64 to64) (from64_rounds : rounds_from64 from64).
Let P11 : (11 <= prec)%Z. Proof. lia. Qed.

Section Rays.
Context {C : Type}.
Variables (M : R) (rays : list (Ray C T)).
Hypotheses (M1 : 1 <= M) (NM : INR (length rays) * M <= bpow radix2 E) (N40 : INR (length rays) <= 2 ^ 40)
  (L2 : (2 <= length rays)%nat) (RS : Forall (ray_sized E M) rays).
Local Notation n := (INR (length rays)).

Lemma isect_converges svd : (forall S, mat_sized (2 * n) S -> mclose (n * (25 * u + (n + 1) * v)) (mreal S) (Smat (map ray_real rays)) ->
    exists d, svd S true true lit_1em7 100%nat = Some d) ->
  best_intersection_of_rays to64 from64 svd rays <> Some (Err SvdFailed).
Proof.
  intros HS.
  pose proof (u_small2 prec P24) as US. pose proof (v_u2 prec P24) as VU.
  assert (N2 : 2 <= n) by (apply (le_INR 2); exact L2).
  set (delta := 25 * u + (n + 1) * v) in *. assert (D0 : 0 < delta) by (unfold delta; nra).
  assert (DS : delta <= / 1000).
  { assert (Q : (n + 1) * v <= / 4000).
    { assert (v2 : v <= / 2 ^ 53) by (simpl; lra). apply Rle_trans with ((2 ^ 40 + 1) * / 2 ^ 53); [apply Rmult_le_compat; lra|]. simpl. lra. }
    unfold delta. lra. }
  pose proof (fun r Hr => ray_terms prec emax Hp He fsin fcos P11 E E0 E2 (C := C) M r (M_le2 prec emax E M rays M1 NM N40 L2) Hr) as RT.
  destruct (sum_S2 prec emax gsin gcos P24 E1024 E E0 E2 to64 to64_exact M rays M1 NM N40 L2 RS t_xx t_xx) as (sxx & Exx & Fxx & Dxx & Bxx); [intros r Hr; apply RT; exact Hr|].
  destruct (sum_S2 prec emax gsin gcos P24 E1024 E E0 E2 to64 to64_exact M rays M1 NM N40 L2 RS t_yy t_yy) as (syy & Eyy & Fyy & Dyy & Byy); [intros r Hr; apply RT; exact Hr|].
  destruct (sum_S2 prec emax gsin gcos P24 E1024 E E0 E2 to64 to64_exact M rays M1 NM N40 L2 RS t_zz t_zz) as (szz & Ezz & Fzz & Dzz & Bzz); [intros r Hr; apply RT; exact Hr|].
  destruct (sum_S2 prec emax gsin gcos P24 E1024 E E0 E2 to64 to64_exact M rays M1 NM N40 L2 RS t_xy t_xy) as (sxy & Exy & Fxy & Dxy & Bxy); [intros r Hr; apply RT; exact Hr|].
  destruct (sum_S2 prec emax gsin gcos P24 E1024 E E0 E2 to64 to64_exact M rays M1 NM N40 L2 RS t_xz t_xz) as (sxz & Exz & Fxz & Dxz & Bxz); [intros r Hr; apply RT; exact Hr|].
  destruct (sum_S2 prec emax gsin gcos P24 E1024 E E0 E2 to64 to64_exact M rays M1 NM N40 L2 RS t_yz t_yz) as (syz & Eyz & Fyz & Dyz & Byz); [intros r Hr; apply RT; exact Hr|].
  destruct (sum_C2 prec emax Hp gsin gcos P24 E1024 E E0 E2 to64 from64 to64_exact from64_rounds M rays M1 NM N40 L2 RS t_cx t_cx) as (scx & Ecx & Fcx & Dcx & Bcx); [intros r Hr; apply RT; exact Hr|].
  destruct (sum_C2 prec emax Hp gsin gcos P24 E1024 E E0 E2 to64 from64 to64_exact from64_rounds M rays M1 NM N40 L2 RS t_cy t_cy) as (scy & Ecy & Fcy & Dcy & Bcy); [intros r Hr; apply RT; exact Hr|].
  destruct (sum_C2 prec emax Hp gsin gcos P24 E1024 E E0 E2 to64 from64 to64_exact from64_rounds M rays M1 NM N40 L2 RS t_cz t_cz) as (scz & Ecz & Fcz & Dcz & Bcz); [intros r Hr; apply RT; exact Hr|].
  fold delta in Dxx, Dyy, Dzz, Dxy, Dxz, Dyz.
  rewrite isect_unfold by exact L2.
  rewrite Exx, Eyy, Ezz, Exy, Exz, Eyz, Ecx, Ecy, Ecz. cbn [bind].
  set (S := mkM33 sxx sxy sxz sxy syy syz sxz syz szz) in *.
  unfold my_pinv.
  assert (SZD : mat_sized (2 * n) S).
  { assert (Q : forall (y : f64) a, is_finite y = true -> Rabs (B2R y - a) <= n * delta -> Rabs a <= n -> sized 0 (2 * n) y).
    { intros y a Fy Dy Sy. split; [exact Fy|]. split; [apply Rabs_pos|]. replace (B2R y) with ((B2R y - a) + a) by ring.
      eapply Rle_trans; [apply tri; eassumption|]. nra. }
    unfold mat_sized, S. cbn [m00 m01 m02 m10 m11 m12 m20 m21 m22]. repeat split; eapply Q; eassumption. }
  assert (MC : mclose (n * delta) (mreal S) (Smat (map ray_real rays))).
  { unfold mclose, mreal, S, Smat. cbn [m00 m01 m02 m10 m11 m12 m20 m21 m22]. repeat split; assumption. }
  destruct (HS S SZD MC) as (d & ->). unfold bind. destruct (svd_pseudo_inverse d lit_1em7); [|discriminate].
  discriminate.
Qed.
End Rays.
End Main.
Local Open Scope R_scope.

Lemma svd3_ok {T} {OT : Ops T} (m : M33 T) eps n d : svd_ordered3 m true true eps n = Some (Some d) -> svd3_try_new m true true eps n = Some d.
Proof. intros E. unfold svd3_try_new. now rewrite E. Qed.
Lemma svd_conv64 (gsin gcos : f64 -> f64) (S : M33 f64) k lam : mat_finite S -> at_most k (mreal S) -> at_least lam (mreal S) -> 0 < lam -> k <= 300 * lam ->
  bpow radix2 (- (400)) <= k <= bpow radix2 400 -> pairs_at_least (49 / 100 * k ^ 2) (mreal S) ->
  exists d, @svd3_try_new f64 (f64_ops gsin gcos) S true true (@lit_1em7 f64 (f64_ops gsin gcos)) 100 = Some d.
Proof.
  intros FM AM AL L0 KL SK PA. destruct (C113_lemma gsin gcos S k lam FM AM AL L0 KL SK PA) as (d & E & _). exists d. exact (svd3_ok _ _ _ _ E).
Qed.

Section C114.
Variables (prec emax : Z) (Hp : Prec_gt_0 prec) (He : Prec_lt_emax prec emax).
Variables fsin fcos : binary_float prec emax -> binary_float prec emax.
Variables gsin gcos : f64 -> f64.
Local Notation T := (binary_float prec emax).
Local Notation F := (binary_float prec emax).
Local Hint Extern 0 (Ops (binary_float prec emax)) =>
  exact (B_ops prec emax Hp He fsin fcos) : typeclass_instances.
Local Hint Extern 0 (Ops f64) => exact (f64_ops gsin gcos) : typeclass_instances.
Local Hint Extern 0 (Ops (binary_float 53 1024)) => exact (f64_ops gsin gcos) : typeclass_instances.
Local Notation u := (bpow radix2 (- prec)).
Local Notation v := (bpow radix2 (- (53))).
Local Notation big := (bpow radix2 emax).

Lemma C114a_lemma {C} (E : Z) to64 from64 M (rays : list (Ray C T)) lam :
  (24 <= prec <= 53)%Z -> (emax <= 1024)%Z -> (0 <= E)%Z -> (2 * E + 34 <= emax)%Z -> exact_to64 to64 -> rounds_from64 from64 ->
  let n := INR (length rays) in
  1 <= M -> n * M <= bpow radix2 E -> n <= 2 ^ 36 -> (2 <= length rays)%nat -> Forall (ray_sized E M) rays ->
  n <= 250 * lam -> spread lam (map ray_real rays) ->
  best_intersection_of_rays to64 from64 svd3_try_new rays <> Some (Err SvdFailed).
Proof.
  intros P24 E1024 E0 E2 TX FR n M1 NM N36 L2 RS NL SP.
  assert (N2 : 2 <= n) by (apply (le_INR 2); exact L2).
  assert (L0 : 0 < lam) by lra.
  assert (ND : nonzero_dirs (map ray_real rays)).
  { unfold nonzero_dirs. rewrite Forall_map. eapply Forall_impl; [|exact RS]. intros r Hr. cbn [ray_real ray_direction].
    now apply (ray_sized_dir prec emax E M). }
  assert (US : u <= / 16000000) by apply (u_small prec P24).
  assert (U0 : 0 < u) by apply bpow_gt_0. assert (V0 : 0 < v) by apply bpow_gt_0.
  apply (isect_converges prec emax Hp He fsin fcos gsin gcos P24 E1024 E E0 E2 to64 from64 TX FR M rays M1 NM); try assumption.
  { fold n. assert (2 ^ 36 <= 2 ^ 40) by (simpl; lra). lra. }
  fold n. set (delta := 25 * u + (n + 1) * v) in *.
  assert (DS : 0 < delta <= / 60000).
  { assert (v2 : v <= / 2 ^ 53) by (simpl; lra).
    assert (0 < (n + 1) * v) by (apply Rmult_lt_0_compat; lra).
    assert ((n + 1) * v <= / 120000) by (apply Rle_trans with ((2 ^ 36 + 1) * / 2 ^ 53); [apply Rmult_le_compat; lra|simpl; lra]).
    unfold delta. lra. }
  assert (ND0 : 0 <= n * delta) by (apply Rmult_le_pos; lra).
  assert (NDL : n * delta <= lam / 240) by (apply Rle_trans with (250 * lam * / 60000); [apply Rmult_le_compat; lra|lra]).
  assert (NDN : n * delta <= n / 60000) by (apply Rmult_le_compat_l; lra).
  intros S SZ MC.
  assert (AM := close_most _ _ _ _ ND0 MC (Smat_at_most _ ND)). assert (AL := close_least _ _ _ _ ND0 MC (Smat_at_least _ lam ND SP)).
  assert (PA := close_pairs _ _ _ _ _ ND0 MC (Smat_at_most _ ND) (Smat_pairs _ ND)). rewrite map_length in AM, PA. fold n in AM, PA.
  apply (svd_conv64 gsin gcos S (n + 3 * (n * delta)) (lam - 3 * (n * delta))).
  - unfold mat_sized, sized in SZ. repeat split; apply SZ.
  - exact AM.
  - exact AL.
  - lra.
  - lra.
  - split; [apply Rle_trans with 1; [apply (bpow_le radix2 _ 0); lia|lra]|].
    apply Rle_trans with (bpow radix2 37); [simpl; simpl in N36; lra|apply bpow_le; lia].
  - intros a b A B AB. eapply Rle_trans; [|exact (PA a b A B AB)]. set (t := n * delta) in *. clearbody t.
    assert (T1 : 12 * t * n <= 12 * (n / 60000) * n) by (apply Rmult_le_compat_r; lra).
    assert (T2 : (n + 3 * t) * (n + 3 * t) <= 1.0001 * n * (1.0001 * n)) by (apply Rmult_le_compat; lra).
    assert (T3 : 0 <= n * n) by (apply Rmult_le_pos; lra). simpl. rewrite Rmult_1_r. lra.
Qed.

Lemma C114b_lemma (E : Z) to64 from64 w M P f Z eps X (rays : list (Ray WorldFrame F)) truth om lam :
  (24 <= prec <= 53)%Z -> (emax <= 1024)%Z -> (0 <= E)%Z -> (2 * E + 34 <= emax)%Z ->
  exact_to64 to64 -> rounds_from64 from64 -> u <= w <= / 2048 ->
  1 <= M -> 1 <= P -> 512 * P * M < big -> 0 < f -> 5 * P <= M * f -> 1 <= Z -> 0 <= eps ->
  let n := INR (length rays) in
  n * (4 * M) <= bpow radix2 E -> n <= 2 ^ 36 -> (2 <= length rays)%nat ->
  Forall2 (fun r t => seen_persp w M P f Z eps X r t \/ seen_ortho w M P f Z eps X r t) rays truth -> spread lam truth ->
  u <= om -> om <= / 16000000 -> 1 / 10 ^ 11 <= om ->
  let s := 3.5 * ((eps + 13.2 * w * P) / f) + 530 * w * M in
  let mu := lam - 2 * s * n in
  let eta := 3 / 10 ^ 6 * (n / mu) * n + 3 * n * (25 * u + (n + 1) * v) in
  0 < mu -> n <= 250 * mu -> eta < mu ->
  let best := best_intersection_of_rays to64 from64 svd3_try_new rays in
  best <> Some (Err SvdFailed).
Proof.
  intros P24 E1024 E0 E2 TX FR (UW & W11) M1 P1 PB F0 FM Z1 EP n NM N36 L2 SEEN SP UO O1 O2 s mu eta MU NMU G best.
  assert (U0 : 0 < u) by apply bpow_gt_0. assert (V0 : 0 < v) by apply bpow_gt_0.
  assert (N2 : 2 <= n) by (apply (le_INR 2); exact L2). pose proof cutoff_pos as CP. pose proof cutoff_lt as CL.
  assert (If : 0 < / f) by now apply Rinv_0_lt_compat.
  assert (S0 : 0 <= s).
  { unfold s. apply Rplus_le_le_0_compat.
    - apply Rmult_le_pos; [lra|]. apply Rmult_le_pos; [|lra]. apply Rplus_le_le_0_compat; [exact EP|]. apply Rmult_le_pos; [|lra]. lra.
    - apply Rmult_le_pos; [lra|lra]. }
  assert (E'0 : 0 <= eta).
  { unfold eta. apply Rplus_le_le_0_compat.
    - apply Rmult_le_pos; [|lra]. apply Rmult_le_pos; [lra|]. apply Rmult_le_pos; [lra|left; now apply Rinv_0_lt_compat].
    - apply Rmult_le_pos; [lra|]. apply Rplus_le_le_0_compat; [lra|]. apply Rmult_le_pos; lra. }
  assert (LT : lam <= n).
  { unfold n. replace (length rays) with (length truth) by (clear -SEEN; induction SEEN; cbn; congruence). now apply spread_le'. }
  assert (S2 : s < 1 / 2).
  { apply Rmult_lt_reg_r with (2 * n); [lra|]. replace (s * (2 * n)) with (2 * s * n) by ring. unfold mu in MU. lra. }
  assert (Facts : Forall2 (fun r t => ray_sized E (4 * M) r /\ vreal (ray_direction r) <> vO /\
      (exists z, vdist X (vadd (vreal (ray_center r)) (vscl z (vreal (ray_direction r)))) <= 2600 * w * M + Z * s) /\
      ray_direction t <> vO /\ exists z, vdist (vscl z (vreal (ray_direction r))) (ray_direction t) <= s * vlen (ray_direction t)) rays truth).
  { assert (B1 : bpow radix2 1 <= bpow radix2 E).
    { change (bpow radix2 1) with 2. eapply Rle_trans; [|exact NM]. nra. }
    assert (B2 : bpow radix2 (- E) <= 1 / 2).
    { rewrite bpow_opp. replace (1 / 2) with (/ bpow radix2 1) by (simpl; lra). apply Rinv_le_contravar; [apply bpow_gt_0|exact B1]. }
    eapply Forall2_impl'; [|exact SEEN]. intros r t Hs.
    destruct (seen_facts prec emax Hp He fsin fcos w UW W11 ltac:(lia) M P f Z eps X r t M1 P1 PB F0 FM Z1 EP S2 Hs) as (A1 & A2 & A3 & A4 & A5 & A6).
    split; [|split; [|split; [|split]]]; try assumption.
    - split; [exact A1|]. split; [exact A2|]. split; [lra|]. apply Rle_trans with (2.1 * M); [apply A3|]. nra.
    - intros Q. rewrite Q, vlen_O in A3. lra. }
  assert (RS : Forall (ray_sized E (4 * M)) rays).
  { clear -Facts. induction Facts as [|r t l l' H _ IH]; constructor; [apply H|exact IH]. }
  set (rr := map ray_real rays).
  assert (ND : nonzero_dirs rr).
  { unfold nonzero_dirs, rr. rewrite Forall_map. clear -Facts. induction Facts as [|r t l l' H _ IH]; constructor; [apply H|exact IH]. }
  assert (SPR : spread mu rr).
  { replace mu with (lam - 2 * s * INR (length rr)) by (unfold rr; rewrite map_length; reflexivity).
    apply tilt_spread with truth; [lra| |exact SP]. unfold rr. clear -Facts. induction Facts as [|r t l l' H _ IH]; constructor; [|exact IH].
    cbn [ray_real ray_direction]. split; [apply H|]. split; apply H. }
  apply (C114a_lemma E to64 from64 (4 * M) rays mu P24 E1024 E0 E2 TX FR ltac:(lra) NM N36 L2 RS NMU SPR).
Qed.
End C114.
