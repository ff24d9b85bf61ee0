(** * FloatSvdProofs26.v - ray intersection and triangulation for any condition number (C116 - C119) *)

From Coq Require Import ZArith Reals List Bool Lra Lia Psatz.
From Flocq Require Import Core BinarySingleNaN.
From Verif Require Import Scalar SymEigen Linalg Bundles Extrinsics Perspective Orthographic Camera RayIntersection Rows Convert Spec SpecGeom SpecIsect SpecTri SpecFloatErr SpecFloatIsect SpecFloatTri SpecSvd SpecFloatSvd SpecFloatSvd2 RealBase VecLemmas ExtrinsicsProofs IsectBase IsectProofs SpectralProofs TriProofs SymEigenProofs6 FloatBase FloatRound FloatErrProofs FloatErrProofs2 FloatApprox FloatRigidProofs FloatProjProofs FloatDirProofs FloatIsectProofs FloatIsectProofs2 FloatIsectProofs3 FloatIsectProofs4 FloatIsectProofs5 FloatViewProofs FloatWorldProofs FloatTriProofs FloatTriProofs2 FloatTriProofs3 FloatSvdProofs14 FloatSvdProofs15 FloatSvdProofs16 FloatSvdProofs22 FloatSvdProofs23 FloatSvdProofs24 FloatSvdProofs25.
Import ListNotations.
Local Open Scope R_scope.

Section Main.
Variables (prec emax : Z) (Hp : Prec_gt_0 prec) (He : Prec_lt_emax prec emax).
Variables fsin fcos : binary_float prec emax -> binary_float prec emax.
Variables gsin gcos : binary_float 53 1024 -> binary_float 53 1024.
Local Notation T := (binary_float prec emax).
Local Notation D := (binary_float 53 1024).
Local Hint Extern 0 (Ops (binary_float prec emax)) =>
  exact (B_ops prec emax Hp He fsin fcos) : typeclass_instances.
Local Hint Extern 0 (Ops (binary_float 53 1024)) =>
  exact (B_ops 53 1024 f64_prec f64_emax gsin gcos) : typeclass_instances.
Local Open Scope R_scope.
Local Notation u := (bpow radix2 (- prec)).
Local Notation v := (bpow radix2 (- (53))).
Local Notation big := (bpow radix2 emax).
Local Notation tiny := (bpow radix2 (2 - emax)).
Hypotheses (P24 : (24 <= prec <= 53)%Z) (E1024 : (emax <= 1024)%Z).
Variable E : Z.
Hypotheses (E0 : (0 <= E)%Z) (E2 : (2 * E + 34 <= emax)%Z).
Variables (to64 : T -> option D) (from64 : D -> T).
Hypotheses (to64_exact : exact_to64 to64) (from64_rounds : rounds_from64 from64).
Let P11 : (11 <= prec)%Z. Proof. lia. Qed.

Section Rays.
Context {C : Type}.
Variables (M : R) (rays : list (Ray C T)).
Hypotheses (M1 : 1 <= M) (NM : INR (length rays) * M <= bpow radix2 E) (N40 : INR (length rays) <= 2 ^ 40)
  (L2 : (2 <= length rays)%nat) (RS : Forall (ray_sized E M) rays).
Local Notation n := (INR (length rays)).

Lemma isect_points svd : (forall S, mat_sized (2 * n) S -> mclose (n * (25 * u + (n + 1) * v)) (mreal S) (Smat (map ray_real rays)) ->
    exists d p, svd S true true lit_1em7 100%nat = Some d /\ svd_pseudo_inverse d lit_1em7 = Some p) ->
  exists x, best_intersection_of_rays to64 from64 svd rays = Some (Ok (mkPoints [x])).
Proof.
  intros HS.
  pose proof (u_small2 prec P24) as US. pose proof (v_u2 prec P24) as VU.
  assert (N2 : 2 <= n) by (apply (le_INR 2); exact L2).
  set (delta := 25 * u + (n + 1) * v) in *. assert (D0 : 0 < delta) by (unfold delta; nra).
  assert (DS : delta <= / 1000).
  { assert (Q : (n + 1) * v <= / 4000).
    { assert (v2 : v <= / 2 ^ 53) by (simpl; lra). apply Rle_trans with ((2 ^ 40 + 1) * / 2 ^ 53); [apply Rmult_le_compat; lra|]. simpl. lra. }
    unfold delta. lra. }
  pose proof (fun r Hr => ray_terms prec emax Hp He fsin fcos P11 E E0 E2 (C := C) M r (M_le2 prec emax E M rays M1 NM N40 L2) Hr) as RT.
  destruct (sum_S2 prec emax gsin gcos P24 E1024 E E0 E2 to64 to64_exact M rays M1 NM N40 L2 RS t_xx t_xx) as (sxx & Exx & Fxx & Dxx & Bxx); [intros r Hr; apply RT; exact Hr|].
  destruct (sum_S2 prec emax gsin gcos P24 E1024 E E0 E2 to64 to64_exact M rays M1 NM N40 L2 RS t_yy t_yy) as (syy & Eyy & Fyy & Dyy & Byy); [intros r Hr; apply RT; exact Hr|].
  destruct (sum_S2 prec emax gsin gcos P24 E1024 E E0 E2 to64 to64_exact M rays M1 NM N40 L2 RS t_zz t_zz) as (szz & Ezz & Fzz & Dzz & Bzz); [intros r Hr; apply RT; exact Hr|].
  destruct (sum_S2 prec emax gsin gcos P24 E1024 E E0 E2 to64 to64_exact M rays M1 NM N40 L2 RS t_xy t_xy) as (sxy & Exy & Fxy & Dxy & Bxy); [intros r Hr; apply RT; exact Hr|].
  destruct (sum_S2 prec emax gsin gcos P24 E1024 E E0 E2 to64 to64_exact M rays M1 NM N40 L2 RS t_xz t_xz) as (sxz & Exz & Fxz & Dxz & Bxz); [intros r Hr; apply RT; exact Hr|].
  destruct (sum_S2 prec emax gsin gcos P24 E1024 E E0 E2 to64 to64_exact M rays M1 NM N40 L2 RS t_yz t_yz) as (syz & Eyz & Fyz & Dyz & Byz); [intros r Hr; apply RT; exact Hr|].
  destruct (sum_C2 prec emax Hp gsin gcos P24 E1024 E E0 E2 to64 from64 to64_exact from64_rounds M rays M1 NM N40 L2 RS t_cx t_cx) as (scx & Ecx & Fcx & Dcx & Bcx); [intros r Hr; apply RT; exact Hr|].
  destruct (sum_C2 prec emax Hp gsin gcos P24 E1024 E E0 E2 to64 from64 to64_exact from64_rounds M rays M1 NM N40 L2 RS t_cy t_cy) as (scy & Ecy & Fcy & Dcy & Bcy); [intros r Hr; apply RT; exact Hr|].
  destruct (sum_C2 prec emax Hp gsin gcos P24 E1024 E E0 E2 to64 from64 to64_exact from64_rounds M rays M1 NM N40 L2 RS t_cz t_cz) as (scz & Ecz & Fcz & Dcz & Bcz); [intros r Hr; apply RT; exact Hr|].
  fold delta in Dxx, Dyy, Dzz, Dxy, Dxz, Dyz.
  rewrite isect_unfold by exact L2.
  rewrite Exx, Eyy, Ezz, Exy, Exz, Eyz, Ecx, Ecy, Ecz. cbn [bind].
  set (S := mkM33 sxx sxy sxz sxy syy syz sxz syz szz) in *.
  unfold my_pinv.
  assert (SZD : mat_sized (2 * n) S).
  { assert (Q : forall (y : f64) a, is_finite y = true -> Rabs (B2R y - a) <= n * delta -> Rabs a <= n -> sized 0 (2 * n) y).
    { intros y a Fy Dy Sy. split; [exact Fy|]. split; [apply Rabs_pos|]. replace (B2R y) with ((B2R y - a) + a) by ring.
      eapply Rle_trans; [apply tri; eassumption|]. nra. }
    unfold mat_sized, S. cbn [m00 m01 m02 m10 m11 m12 m20 m21 m22]. repeat split; eapply Q; eassumption. }
  assert (MC : mclose (n * delta) (mreal S) (Smat (map ray_real rays))).
  { unfold mclose, mreal, S, Smat. cbn [m00 m01 m02 m10 m11 m12 m20 m21 m22]. repeat split; assumption. }
  destruct (HS S SZD MC) as (d & p & -> & E'). rewrite E'. eexists. reflexivity.
Qed.
End Rays.
End Main.
Local Open Scope R_scope.

Lemma pinv_some {T} {OT : Ops T} (d : SVD T) fu fvt eps : svd_u d = Some fu -> svd_vt d = Some fvt -> o_ltb eps o_zero = false -> exists p, svd_pseudo_inverse d eps = Some p.
Proof. intros E1 E2 E3. unfold svd_pseudo_inverse, svd_recompose. rewrite E3, E1, E2. eexists. reflexivity. Qed.

(** the matrix of the normal equations meets the conditions *)
Lemma delta_small prec n : (24 <= prec <= 53)%Z -> 2 <= n -> n <= 2 ^ 36 -> 0 < 25 * bpow radix2 (- prec) + (n + 1) * bpow radix2 (- (53)) <= / 60000.
Proof.
  intros P24 N2 N36. assert (US : bpow radix2 (- prec) <= / 16000000) by apply (u_small prec P24). pose proof (bpow_gt_0 radix2 (- prec)) as U0. pose proof (bpow_gt_0 radix2 (- (53))) as V0.
  set (v := bpow radix2 (- (53))) in *. assert (v2 : v <= / 2 ^ 53) by (unfold v; simpl; lra). clearbody v.
  assert (0 < (n + 1) * v) by (apply Rmult_lt_0_compat; lra).
  assert ((n + 1) * v <= / 120000) by (apply Rle_trans with ((2 ^ 36 + 1) * / 2 ^ 53); [apply Rmult_le_compat; lra|simpl; lra]). lra.
Qed.
Lemma normal_ok {C} (rays : list (Ray C R)) e (S : M33 f64) : nonzero_dirs rays -> 2 <= INR (length rays) -> INR (length rays) <= 2 ^ 36 -> 0 <= e <= INR (length rays) / 60000 ->
  mat_sized (2 * INR (length rays)) S -> mclose e (mreal S) (Smat rays) ->
  let k := INR (length rays) + 3 * e in
  mat_finite S /\ at_most k (mreal S) /\ bpow radix2 (- (400)) <= k <= bpow radix2 400 /\ pairs_at_least (49 / 100 * k ^ 2) (mreal S).
Proof.
  intros ND N2 N36 E0 SZ MC k. assert (AM := close_most _ _ _ _ (proj1 E0) MC (Smat_at_most _ ND)). assert (PA := close_pairs _ _ _ _ _ (proj1 E0) MC (Smat_at_most _ ND) (Smat_pairs _ ND)).
  set (n := INR (length rays)) in *. split; [|split; [exact AM|split]].
  - unfold mat_sized, sized in SZ. repeat split; apply SZ.
  - unfold k. split; [apply Rle_trans with 1; [apply (bpow_le radix2 _ 0); lia|lra]|].
    apply Rle_trans with (bpow radix2 37); [simpl; simpl in N36; lra|apply bpow_le; lia].
  - intros a b A B AB. eapply Rle_trans; [|exact (PA a b A B AB)]. unfold k. clearbody n.
    assert (T1 : 12 * e * n <= 12 * (n / 60000) * n) by (apply Rmult_le_compat_r; lra).
    assert (T2 : (n + 3 * e) * (n + 3 * e) <= 1.0001 * n * (1.0001 * n)) by (apply Rmult_le_compat; lra).
    assert (T3 : 0 <= n * n) by (apply Rmult_le_pos; lra). simpl. rewrite Rmult_1_r. lra.
Qed.
Lemma lit_not_neg (gsin gcos : f64 -> f64) : @o_ltb f64 (f64_ops gsin gcos) (@lit_1em7 f64 (f64_ops gsin gcos)) (@o_zero f64 (f64_ops gsin gcos)) = false.
Proof. reflexivity. Qed.

Section C117.
Variables (prec emax : Z) (Hp : Prec_gt_0 prec) (He : Prec_lt_emax prec emax).
Variables fsin fcos : binary_float prec emax -> binary_float prec emax.
Variables gsin gcos : f64 -> f64.
Local Notation T := (binary_float prec emax).
Local Notation F := (binary_float prec emax).
Local Hint Extern 0 (Ops (binary_float prec emax)) =>
  exact (B_ops prec emax Hp He fsin fcos) : typeclass_instances.
Local Hint Extern 0 (Ops f64) => exact (f64_ops gsin gcos) : typeclass_instances.
Local Hint Extern 0 (Ops (binary_float 53 1024)) => exact (f64_ops gsin gcos) : typeclass_instances.
Local Notation u := (bpow radix2 (- prec)).
Local Notation v := (bpow radix2 (- (53))).
Local Notation big := (bpow radix2 emax).

Lemma C117_lemma {C} (E : Z) (to64 : T -> option f64) (from64 : f64 -> T) M (rays : list (Ray C T)) :
  (24 <= prec <= 53)%Z -> (emax <= 1024)%Z -> (0 <= E)%Z -> (2 * E + 34 <= emax)%Z -> exact_to64 to64 -> rounds_from64 from64 ->
  let n := INR (length rays) in
  1 <= M -> n * M <= bpow radix2 E -> n <= 2 ^ 36 -> (2 <= length rays)%nat -> Forall (ray_sized E M) rays ->
  exists x, best_intersection_of_rays to64 from64 svd3_try_new rays = Some (Ok (mkPoints [x])).
Proof.
  intros P24 E1024 E0 E2 TX FR n M1 NM N36 L2 RS.
  assert (N2 : 2 <= n) by (apply (le_INR 2); exact L2).
  assert (ND : nonzero_dirs (map ray_real rays)).
  { unfold nonzero_dirs. rewrite Forall_map. eapply Forall_impl; [|exact RS]. intros r Hr. cbn [ray_real ray_direction].
    now apply (ray_sized_dir prec emax E M). }
  apply (isect_points prec emax Hp He fsin fcos gsin gcos P24 E1024 E E0 E2 to64 from64 TX FR M rays M1 NM); try assumption.
  { fold n. assert (2 ^ 36 <= 2 ^ 40) by (simpl; lra). lra. }
  fold n. pose proof (delta_small prec n P24 N2 N36) as DS. set (delta := 25 * u + (n + 1) * v) in *.
  intros S SZ MC. assert (LR : INR (length (map (@ray_real prec emax C) rays)) = n) by (rewrite map_length; reflexivity).
  assert (NDN : 0 <= n * delta <= n / 60000) by (split; [apply Rmult_le_pos; lra|apply Rmult_le_compat_l; lra]).
  destruct (normal_ok (map ray_real rays) (n * delta) S ND) as (H1 & H2 & H3 & H4); rewrite ?LR; try assumption.
  rewrite LR in *. destruct (C116_lemma gsin gcos S _ H1 H2 H3 H4) as (d & ED & (fu & fvt & E1 & E3) & _).
  destruct (pinv_some d fu fvt (@lit_1em7 f64 (f64_ops gsin gcos)) E1 E3 (lit_not_neg gsin gcos)) as (p & EP). exists d, p. split; [exact (svd3_ok _ _ _ _ ED)|exact EP].
Qed.

Lemma C118_lemma {C} (E : Z) (to64 : T -> option f64) (from64 : f64 -> T) om M (rays : list (Ray C T)) lam x :
  (24 <= prec <= 53)%Z -> (emax <= 1024)%Z -> (0 <= E)%Z -> (2 * E + 34 <= emax)%Z -> exact_to64 to64 -> rounds_from64 from64 -> u <= om -> om <= / 16000000 -> 1 / 10 ^ 11 <= om ->
  let n := INR (length rays) in
  1 <= M -> n * M <= bpow radix2 E -> n <= 2 ^ 36 -> (2 <= length rays)%nat -> Forall (ray_sized E M) rays ->
  let eta := 3 / 10 ^ 6 * n + 3 * n * (25 * u + (n + 1) * v) in
  2 * eta <= lam -> spread lam (map ray_real rays) ->
  (forall y, sum_sq_dist (map ray_real rays) x <= sum_sq_dist (map ray_real rays) y) ->
  exists x', best_intersection_of_rays to64 from64 svd3_try_new rays = Some (Ok (mkPoints [x'])) /\ vec_finite x' /\
    vdist (vreal x') x <= (eta * vlen x + n * M * (810 * om + 6 * (n + 1) * v)) / (lam - eta).
Proof.
  intros P24 E1024 E0 E2 TX FR UW WS OM n M1 NM N36 L2 RS eta EL SP MIN.
  assert (N2 : 2 <= n) by (apply (le_INR 2); exact L2).
  assert (ND : nonzero_dirs (map ray_real rays)).
  { unfold nonzero_dirs. rewrite Forall_map. eapply Forall_impl; [|exact RS]. intros r Hr. cbn [ray_real ray_direction].
    now apply (ray_sized_dir prec emax E M). }
  pose proof (delta_small prec n P24 N2 N36) as DS. unfold eta in *. clear eta. set (delta := 25 * u + (n + 1) * v) in *.
  assert (LR : INR (length (map (@ray_real prec emax C) rays)) = n) by (rewrite map_length; reflexivity).
  assert (NDN : 0 <= n * delta <= n / 60000) by (split; [apply Rmult_le_pos; lra|apply Rmult_le_compat_l; lra]).
  replace (3 * n * delta) with (3 * (n * delta)) in * by ring. pose proof cutoff_lt as CL.
  destruct (isect_actual prec emax Hp He fsin fcos gsin gcos P24 E1024 E E0 E2 to64 from64 TX FR om UW WS M rays) with
   (svd := @svd3_try_new f64 (f64_ops gsin gcos)) (eta := 3 / 10 ^ 6 * n) (lam := lam) (x := x) as (x' & R1 & R2 & R3); try assumption.
  - fold n. assert (2 ^ 36 <= 2 ^ 40) by (simpl; lra). lra.
  - lra.
  - fold n. fold delta. intros S d SZ MC ES.
    destruct (normal_ok (map ray_real rays) (n * delta) S ND) as (H1 & H2 & H3 & H4); rewrite ?LR; try assumption. rewrite LR in *.
    assert (AL := close_least _ _ _ _ (proj1 NDN) MC (Smat_at_least _ lam ND SP)).
    destruct (C116a_lemma gsin gcos S _ (lam - 3 * (n * delta)) H1 H2 AL ltac:(lra) ltac:(lra) H3 H4) as (d' & ED & G).
    pose proof (svd3_of _ _ _ _ _ ED ES) as EQ. injection EQ as ->.
    destruct G as (fu & fvt & UU & Vt & G1 & G2 & G3 & G4 & G5 & G6 & G7 & G8 & G9 & G10 & G11).
    exists fu, fvt, UU, Vt. split; [exact G1|]. split; [exact G2|]. split; [exact G3|]. split; [exact G4|].
    assert (MW : forall (m : M33 f64) a, SpecFloatIsect.mat_near (1 / 10 ^ 11) m a -> SpecFloatIsect.mat_near om m a).
    { intros m a H. unfold SpecFloatIsect.mat_near, SpecFloatErr.near in *. repeat split; try apply H; (eapply Rle_trans; [apply H|exact OM]). }
    split; [now apply MW|]. split; [now apply MW|]. do 4 (split; [assumption|]).
    intros y. eapply Rle_trans; [apply G11|]. apply Rmult_le_compat_r; [apply vlen_nonneg|]. lra.
  - change (cutoff + (3 / 10 ^ 6 * n + 3 * n * delta) < lam). replace (3 * n * delta) with (3 * (n * delta)) by ring. lra.
  - destruct (C117_lemma E to64 from64 M rays P24 E1024 E0 E2 TX FR M1 NM N36 L2 RS) as (x' & EX). intros Q. pose proof (eq_trans (eq_sym EX) Q) as K. discriminate K.
  - exists x'. split; [exact R1|]. split; [exact R2|]. eapply Rle_trans; [exact R3|]. fold n. fold delta. right. replace (3 * (n * delta)) with (3 * n * delta) by ring. reflexivity.
Qed.

Lemma C119_lemma (E : Z) to64 from64 w M P f Z eps X (rays : list (Ray WorldFrame F)) truth om lam :
  (24 <= prec <= 53)%Z -> (emax <= 1024)%Z -> (0 <= E)%Z -> (2 * E + 34 <= emax)%Z ->
  exact_to64 to64 -> rounds_from64 from64 -> u <= w <= / 2048 ->
  1 <= M -> 1 <= P -> 512 * P * M < big -> 0 < f -> 5 * P <= M * f -> 1 <= Z -> 0 <= eps ->
  let n := INR (length rays) in
  n * (4 * M) <= bpow radix2 E -> n <= 2 ^ 36 -> (2 <= length rays)%nat ->
  Forall2 (fun r t => seen_persp w M P f Z eps X r t \/ seen_ortho w M P f Z eps X r t) rays truth -> spread lam truth ->
  u <= om -> om <= / 16000000 -> 1 / 10 ^ 11 <= om ->
  let s := 3.5 * ((eps + 13.2 * w * P) / f) + 530 * w * M in
  let mu := lam - 2 * s * n in
  let eta := 3 / 10 ^ 6 * n + 3 * n * (25 * u + (n + 1) * v) in
  2 * eta <= mu ->
  let e := (2600 * w * M + Z * s) * sqrt (n / mu) in
  exists x', best_intersection_of_rays to64 from64 svd3_try_new rays = Some (Ok (mkPoints [x'])) /\ vec_finite x' /\
    vdist (vreal x') X <= e + (eta * (vlen X + e) + n * (4 * M) * (810 * om + 6 * (n + 1) * v)) / (mu - eta).
Proof.
  intros P24 E1024 E0 E2 TX FR (UW & W11) M1 P1 PB F0 FM Z1 EP n NM N36 L2 SEEN SP UO O1 O2 s mu eta G e.
  assert (U0 : 0 < u) by apply bpow_gt_0. assert (V0 : 0 < v) by apply bpow_gt_0.
  assert (N2 : 2 <= n) by (apply (le_INR 2); exact L2). pose proof cutoff_pos as CP. pose proof cutoff_lt as CL.
  assert (If : 0 < / f) by now apply Rinv_0_lt_compat.
  assert (S0 : 0 <= s).
  { unfold s. apply Rplus_le_le_0_compat.
    - apply Rmult_le_pos; [lra|]. apply Rmult_le_pos; [|lra]. apply Rplus_le_le_0_compat; [exact EP|]. apply Rmult_le_pos; [|lra]. lra.
    - apply Rmult_le_pos; [lra|lra]. }
  assert (E'0 : 6 / 10 ^ 6 <= eta).
  { unfold eta. rewrite <- (Rplus_0_r (6 / 10 ^ 6)). apply Rplus_le_compat; [lra|].
    apply Rmult_le_pos; [lra|]. apply Rplus_le_le_0_compat; [lra|]. apply Rmult_le_pos; lra. }
  assert (MU : 0 < mu) by lra.
  assert (LT : lam <= n).
  { unfold n. replace (length rays) with (length truth) by (clear -SEEN; induction SEEN; cbn; congruence). now apply spread_le'. }
  assert (S2 : s < 1 / 2).
  { apply Rmult_lt_reg_r with (2 * n); [lra|]. replace (s * (2 * n)) with (2 * s * n) by ring. unfold mu in MU. lra. }
  assert (Facts : Forall2 (fun r t => ray_sized E (4 * M) r /\ vreal (ray_direction r) <> vO /\
      (exists z, vdist X (vadd (vreal (ray_center r)) (vscl z (vreal (ray_direction r)))) <= 2600 * w * M + Z * s) /\
      ray_direction t <> vO /\ exists z, vdist (vscl z (vreal (ray_direction r))) (ray_direction t) <= s * vlen (ray_direction t)) rays truth).
  { assert (B1 : bpow radix2 1 <= bpow radix2 E).
    { change (bpow radix2 1) with 2. eapply Rle_trans; [|exact NM]. nra. }
    assert (B2 : bpow radix2 (- E) <= 1 / 2).
    { rewrite bpow_opp. replace (1 / 2) with (/ bpow radix2 1) by (simpl; lra). apply Rinv_le_contravar; [apply bpow_gt_0|exact B1]. }
    eapply Forall2_impl'; [|exact SEEN]. intros r t Hs.
    destruct (seen_facts prec emax Hp He fsin fcos w UW W11 ltac:(lia) M P f Z eps X r t M1 P1 PB F0 FM Z1 EP S2 Hs) as (A1 & A2 & A3 & A4 & A5 & A6).
    split; [|split; [|split; [|split]]]; try assumption.
    - split; [exact A1|]. split; [exact A2|]. split; [lra|]. apply Rle_trans with (2.1 * M); [apply A3|]. nra.
    - intros Q. rewrite Q, vlen_O in A3. lra. }
  assert (RS : Forall (ray_sized E (4 * M)) rays).
  { clear -Facts. induction Facts as [|r t l l' H _ IH]; constructor; [apply H|exact IH]. }
  set (rr := map ray_real rays).
  assert (ND : nonzero_dirs rr).
  { unfold nonzero_dirs, rr. rewrite Forall_map. clear -Facts. induction Facts as [|r t l l' H _ IH]; constructor; [apply H|exact IH]. }
  assert (SPR : spread mu rr).
  { replace mu with (lam - 2 * s * INR (length rr)) by (unfold rr; rewrite map_length; reflexivity).
    apply tilt_spread with truth; [lra| |exact SP]. unfold rr. clear -Facts. induction Facts as [|r t l l' H _ IH]; constructor; [|exact IH].
    cbn [ray_real ray_direction]. split; [apply H|]. split; apply H. }
  assert (LR : length rr = length rays) by (unfold rr; apply map_length).
  destruct (passing_point rr X mu (2600 * w * M + Z * s)) as (x & MIN & DX).
  - now rewrite LR.
  - exact ND.
  - lra.
  - exact SPR.
  - apply Rplus_le_le_0_compat; [apply Rmult_le_pos; lra|apply Rmult_le_pos; lra].
  - unfold rr. rewrite Forall_map. clear -Facts. induction Facts as [|r t l l' H _ IH]; constructor; [|exact IH]. cbn [ray_real ray_direction ray_center]. apply H.
  - rewrite LR in DX. fold n e in DX.
    destruct (C118_lemma E to64 from64 om (4 * M) rays mu x P24 E1024 E0 E2 TX FR UO O1 O2 ltac:(lra) NM N36 L2 RS G SPR MIN) as (x' & Q & FX & D).
    fold n eta in D. exists x'. split; [exact Q|]. split; [exact FX|].
    eapply Rle_trans; [apply vdist_triangle with (b := x)|].
    assert (LX : vlen x <= vlen X + e) by (pose proof (vdist_len x X); lra).
    assert (D' : vdist (vreal x') x <= (eta * (vlen X + e) + n * (4 * M) * (810 * om + 6 * (n + 1) * v)) / (mu - eta)).
    { eapply Rle_trans; [exact D|]. apply Rmult_le_compat_r; [left; apply Rinv_0_lt_compat; lra|]. apply Rplus_le_compat_r.
      apply Rmult_le_compat_l; [lra|exact LX]. }
    lra.
Qed.
End C117.

(** ** The bounds in numbers *)
Lemma fb118 n lam M x eta dd a b c d g dist : 0 < n -> 0 < lam -> 0 <= x -> 0 <= M -> 0 <= eta <= a * n -> a * n <= g * lam -> g < 1 -> 0 <= dd <= c -> a <= b * (1 - g) -> c <= d * (1 - g) ->
  dist <= (eta * x + n * M * dd) / (lam - eta) -> dist <= b * (n / lam) * x + d * (n / lam) * M.
Proof.
  intros N0 L0 X0 M0 ET AG G1 DD AB CD H. eapply Rle_trans; [exact H|].
  assert (GL : (1 - g) * lam <= lam - eta) by lra. assert (G0 : 0 < (1 - g) * lam) by (apply Rmult_lt_0_compat; lra).
  assert (NX : 0 <= n * x) by (apply Rmult_le_pos; lra). assert (NM : 0 <= n * M) by (apply Rmult_le_pos; lra).
  apply (Rmult_le_reg_r (lam - eta)); [lra|]. unfold Rdiv at 1. rewrite Rmult_assoc, Rinv_l, Rmult_1_r by lra.
  assert (A0 : 0 <= a) by (apply (Rmult_le_reg_r n); [exact N0|]; lra).
  assert (B0 : 0 <= b) by (apply (Rmult_le_reg_r (1 - g)); lra). assert (D0 : 0 <= d) by (apply (Rmult_le_reg_r (1 - g)); lra).
  apply Rle_trans with ((b * (n / lam) * x + d * (n / lam) * M) * ((1 - g) * lam)).
  - replace ((b * (n / lam) * x + d * (n / lam) * M) * ((1 - g) * lam)) with (b * (1 - g) * (n * x) + d * (1 - g) * (n * M)) by (field; lra).
    apply Rplus_le_compat.
    + apply Rle_trans with (a * n * x); [apply Rmult_le_compat_r; lra|]. rewrite Rmult_assoc. now apply Rmult_le_compat_r.
    + rewrite (Rmult_comm (n * M)). apply Rmult_le_compat_r; lra.
  - apply Rmult_le_compat_l; [|exact GL]. assert (0 < n / lam) by (apply Rdiv_lt_0_compat; lra).
    apply Rplus_le_le_0_compat; (apply Rmult_le_pos; [apply Rmult_le_pos|]; lra).
Qed.
Lemma fb119 n lam mu X T eta M dd a c g r k1 : 0 < n -> 0 < lam -> 0 <= X -> 0 <= T -> r * lam <= mu -> 0 < r -> 1 <= k1 * k1 * r -> 0 <= k1 -> 0 <= eta <= a * n -> a * n <= g * lam -> g < r ->
  4 * M * dd <= c -> 0 <= c -> 0 <= a ->
  T * sqrt (n / mu) + (eta * (X + T * sqrt (n / mu)) + n * (4 * M) * dd) / (mu - eta) <=
  T * (k1 * (1 + g / (r - g))) * sqrt (n / lam) + (n / lam) * (a / (r - g) * X + c / (r - g)).
Proof.
  intros N0 L0 X0 T0 RM R0 KR K0 ET AG GR DD C0 A0. assert (ML : 0 < r * lam) by (apply Rmult_lt_0_compat; lra).
  assert (I0 : 0 < / (r - g)) by (apply Rinv_0_lt_compat; lra). assert (IL : 0 < / lam) by (apply Rinv_0_lt_compat; lra).
  assert (SQ : sqrt (n / mu) <= k1 * sqrt (n / lam)).
  { rewrite <- (sqrt_square k1 K0), <- sqrt_mult_alt by (apply Rmult_le_pos; lra). apply sqrt_le_1_alt. apply (Rmult_le_reg_r mu); [lra|].
    replace (n / mu * mu) with n by (field; lra). apply Rle_trans with (k1 * k1 * (n / lam) * (r * lam)).
    - replace (k1 * k1 * (n / lam) * (r * lam)) with (k1 * k1 * r * n) by (field; lra). rewrite <- (Rmult_1_l n) at 1. apply Rmult_le_compat_r; lra.
    - apply Rmult_le_compat_l; [|exact RM]. apply Rmult_le_pos; [apply Rmult_le_pos; lra|left; apply Rdiv_lt_0_compat; lra]. }
  pose proof (sqrt_pos (n / mu)) as S0. set (e := T * sqrt (n / mu)).
  assert (E0 : 0 <= e) by (now apply Rmult_le_pos). assert (EK : e <= T * k1 * sqrt (n / lam)) by (unfold e; rewrite Rmult_assoc; now apply Rmult_le_compat_l). clearbody e.
  assert (GL : (r - g) * lam <= mu - eta) by lra. assert (G0 : 0 < (r - g) * lam) by (apply Rmult_lt_0_compat; lra).
  assert (NX : 0 <= n * X) by (apply Rmult_le_pos; lra).
  assert (P : 0 < n / lam) by (apply Rdiv_lt_0_compat; lra).
  assert (A1 : 0 <= g) by (apply (Rmult_le_reg_r lam); [exact L0|]; lra).
  assert (H : (eta * (X + e) + n * (4 * M) * dd) / (mu - eta) <= g / (r - g) * e + n / lam * (a / (r - g) * X + c / (r - g))).
  { apply (Rmult_le_reg_r (mu - eta)); [lra|]. unfold Rdiv at 1. rewrite Rmult_assoc, Rinv_l, Rmult_1_r by lra.
    apply Rle_trans with ((g / (r - g) * e + n / lam * (a / (r - g) * X + c / (r - g))) * ((r - g) * lam)).
    - replace ((g / (r - g) * e + n / lam * (a / (r - g) * X + c / (r - g))) * ((r - g) * lam)) with (g * lam * e + a * n * X + n * c) by (field; lra).
      replace (eta * (X + e) + n * (4 * M) * dd) with (eta * e + eta * X + n * (4 * M * dd)) by ring.
      apply Rplus_le_compat; [apply Rplus_le_compat; apply Rmult_le_compat_r; lra|]. apply Rmult_le_compat_l; lra.
    - apply Rmult_le_compat_l; [|exact GL]. apply Rplus_le_le_0_compat.
      + apply Rmult_le_pos; [apply Rmult_le_pos; lra|exact E0].
      + apply Rmult_le_pos; [lra|]. apply Rplus_le_le_0_compat; [apply Rmult_le_pos; [apply Rmult_le_pos; lra|exact X0]|apply Rmult_le_pos; lra]. }
  assert (GE : 0 <= g / (r - g)) by (apply Rmult_le_pos; lra).
  assert (G2 : e * (1 + g / (r - g)) <= T * k1 * sqrt (n / lam) * (1 + g / (r - g))) by (apply Rmult_le_compat_r; lra).
  replace (T * (k1 * (1 + g / (r - g))) * sqrt (n / lam)) with (T * k1 * sqrt (n / lam) * (1 + g / (r - g))) by ring. lra.
Qed.

Section F64.
Variables fsin fcos : f64 -> f64.
Variables hsin hcos : f32 -> f32.
Local Hint Extern 0 (Ops f64) => exact (f64_ops fsin fcos) : typeclass_instances.
Local Hint Extern 0 (Ops f32) => exact (f32_ops hsin hcos) : typeclass_instances.
Local Hint Extern 0 (Ops (binary_float 53 1024)) => exact (f64_ops fsin fcos) : typeclass_instances.
Local Hint Extern 0 (Ops (binary_float 24 128)) => exact (f32_ops hsin hcos) : typeclass_instances.
Local Notation u := (bpow radix2 (- (53))).

Lemma C117a_lemma {C} M (rays : list (Ray C f64)) :
  let n := INR (length rays) in
  (2 <= length rays)%nat -> n <= 1000000 -> 1 <= M <= 10 ^ 9 ->
  Forall (fun r => vec_sized M (ray_center r) /\ vec_finite (ray_direction r) /\ 1 / 10 ^ 9 <= vlen (vreal (ray_direction r)) <= 10 ^ 9) rays ->
  exists x', best_intersection_of_rays (fun x : f64 => Some x) (fun x : f64 => x) svd3_try_new rays = Some (Ok (mkPoints [x'])).
Proof.
  intros n L2 N6 M1 RS.
  assert (N2 : 2 <= n) by (apply (le_INR 2); exact L2).
  assert (b60 : bpow radix2 60 = 1152921504606846976) by (simpl; lra).
  assert (B60 : bpow radix2 (- (60)) <= 1 / 10 ^ 9) by (rewrite bpow_opp, b60; lra).
  assert (RS' : Forall (ray_sized 60 M) rays).
  { eapply Forall_impl; [|exact RS]. intros r (H1 & H2 & H3). split; [exact H1|]. split; [exact H2|]. split; [lra|]. rewrite b60. lra. }
  assert (NM : n * M <= bpow radix2 60) by (rewrite b60; apply Rle_trans with (1000000 * 10 ^ 9); [apply Rmult_le_compat; lra|lra]).
  assert (N36 : n <= 2 ^ 36) by (simpl; lra).
  exact (C117_lemma 53 1024 f64_prec f64_emax fsin fcos fsin fcos 60 (fun x : f64 => Some x) (fun x : f64 => x) M rays ltac:(lia) ltac:(lia) ltac:(lia) ltac:(lia) id_exact id_rounds ltac:(apply M1) NM N36 L2 RS').
Qed.
Lemma C117b_lemma {C} M (rays : list (Ray C f32)) :
  let n := INR (length rays) in
  (2 <= length rays)%nat -> n <= 1000000 -> 1 <= M <= 10 ^ 6 ->
  Forall (fun r => vec_sized M (ray_center r) /\ vec_finite (ray_direction r) /\ 1 / 10 ^ 9 <= vlen (vreal (ray_direction r)) <= 10 ^ 9) rays ->
  exists x', best_intersection_of_rays f32_to_f64 f64_to_f32 svd3_try_new rays = Some (Ok (mkPoints [x'])).
Proof.
  intros n L2 N6 M1 RS.
  assert (N2 : 2 <= n) by (apply (le_INR 2); exact L2).
  assert (b40 : bpow radix2 47 = 140737488355328) by (simpl; lra).
  assert (B40 : bpow radix2 (- (47)) <= 1 / 10 ^ 9) by (rewrite bpow_opp, b40; lra).
  assert (RS' : Forall (ray_sized 47 M) rays).
  { eapply Forall_impl; [|exact RS]. intros r (H1 & H2 & H3). split; [exact H1|]. split; [exact H2|]. split; [lra|]. rewrite b40. lra. }
  assert (NM : n * M <= bpow radix2 47) by (rewrite b40; apply Rle_trans with (1000000 * 10 ^ 6); [apply Rmult_le_compat; lra|lra]).
  assert (N36 : n <= 2 ^ 36) by (simpl; lra).
  exact (C117_lemma 24 128 f32_prec f32_emax hsin hcos fsin fcos 47 f32_to_f64 f64_to_f32 M rays ltac:(lia) ltac:(lia) ltac:(lia) ltac:(lia) f32_to_f64_exact f64_to_f32_rounds ltac:(apply M1) NM N36 L2 RS').
Qed.
Lemma C118a_lemma {C} M (rays : list (Ray C f64)) lam x :
  let n := INR (length rays) in
  (2 <= length rays)%nat -> n <= 1000000 -> 1 <= M <= 10 ^ 9 ->
  Forall (fun r => vec_sized M (ray_center r) /\ vec_finite (ray_direction r) /\ 1 / 10 ^ 9 <= vlen (vreal (ray_direction r)) <= 10 ^ 9) rays ->
  n <= 10 ^ 5 * lam -> spread lam (map ray_real rays) ->
  (forall y, sum_sq_dist (map ray_real rays) x <= sum_sq_dist (map ray_real rays) y) ->
  exists x', best_intersection_of_rays (fun x : f64 => Some x) (fun x : f64 => x) svd3_try_new rays = Some (Ok (mkPoints [x'])) /\ vec_finite x' /\
    vdist (vreal x') x <= 43 / 10 ^ 7 * (n / lam) * vlen x + 13 / 10 ^ 9 * (n / lam) * M.
Proof.
  intros n L2 N6 M1 RS NL SP MIN. pose proof u_f64 as U. assert (U0 : 0 < u) by apply bpow_gt_0.
  assert (N2 : 2 <= n) by (apply (le_INR 2); exact L2). assert (L0 : 0 < lam) by lra.
  assert (b60 : bpow radix2 60 = 1152921504606846976) by (simpl; lra).
  assert (B60 : bpow radix2 (- (60)) <= 1 / 10 ^ 9) by (rewrite bpow_opp, b60; lra).
  assert (RS' : Forall (ray_sized 60 M) rays).
  { eapply Forall_impl; [|exact RS]. intros r (H1 & H2 & H3). split; [exact H1|]. split; [exact H2|]. split; [lra|]. rewrite b60. lra. }
  assert (NM : n * M <= bpow radix2 60) by (rewrite b60; apply Rle_trans with (1000000 * 10 ^ 9); [apply Rmult_le_compat; lra|lra]).
  assert (N36 : n <= 2 ^ 36) by (simpl; lra).
  assert (Q : 0 < (n + 1) * u <= 1000001 * u) by (split; [apply Rmult_lt_0_compat; lra|apply Rmult_le_compat_r; lra]).
  assert (Q1 : 0 <= n * (25 * u + (n + 1) * u) <= n * (1 / 10 ^ 9)) by (split; [apply Rmult_le_pos; lra|apply Rmult_le_compat_l; lra]).
  destruct (C118_lemma 53 1024 f64_prec f64_emax fsin fcos fsin fcos 60 (fun x : f64 => Some x) (fun x : f64 => x) (1 / 10 ^ 11) M rays lam x ltac:(lia) ltac:(lia) ltac:(lia) ltac:(lia) id_exact id_rounds
    ltac:(lra) ltac:(lra) ltac:(lra) ltac:(apply M1) NM N36 L2 RS') as (x' & R1 & R2 & R3); try assumption.
  - change (2 * (3 / 10 ^ 6 * n + 3 * n * (25 * u + (n + 1) * u)) <= lam). replace (3 * n * (25 * u + (n + 1) * u)) with (3 * (n * (25 * u + (n + 1) * u))) by ring. lra.
  - exists x'. split; [exact R1|]. split; [exact R2|]. change (INR (@length (Ray C (binary_float 53 1024)) rays)) with n in R3.
    refine (fb118 n lam M (vlen x) _ _ 3.0041e-6 _ 8.8e-9 _ 0.30041 _ ltac:(lra) L0 (vlen_nonneg _) ltac:(lra) _ _ _ _ _ _ R3); lra.
Qed.
Lemma C118b_lemma {C} M (rays : list (Ray C f32)) lam x :
  let n := INR (length rays) in
  (2 <= length rays)%nat -> n <= 1000000 -> 1 <= M <= 10 ^ 6 ->
  Forall (fun r => vec_sized M (ray_center r) /\ vec_finite (ray_direction r) /\ 1 / 10 ^ 9 <= vlen (vreal (ray_direction r)) <= 10 ^ 9) rays ->
  n <= 10 ^ 4 * lam -> spread lam (map ray_real rays) ->
  (forall y, sum_sq_dist (map ray_real rays) x <= sum_sq_dist (map ray_real rays) y) ->
  exists x', best_intersection_of_rays f32_to_f64 f64_to_f32 svd3_try_new rays = Some (Ok (mkPoints [x'])) /\ vec_finite x' /\
    vdist (vreal x') x <= 9 / 10 ^ 6 * (n / lam) * vlen x + 6 / 10 ^ 5 * (n / lam) * M.
Proof.
  intros n L2 N6 M1 RS NL SP MIN. pose proof u_f64 as U. assert (U0 : 0 < u) by apply bpow_gt_0.
  assert (U24 : bpow radix2 (- (24)) = / 16777216) by (simpl; lra).
  assert (N2 : 2 <= n) by (apply (le_INR 2); exact L2). assert (L0 : 0 < lam) by lra.
  assert (b40 : bpow radix2 47 = 140737488355328) by (simpl; lra).
  assert (B40 : bpow radix2 (- (47)) <= 1 / 10 ^ 9) by (rewrite bpow_opp, b40; lra).
  assert (RS' : Forall (ray_sized 47 M) rays).
  { eapply Forall_impl; [|exact RS]. intros r (H1 & H2 & H3). split; [exact H1|]. split; [exact H2|]. split; [lra|]. rewrite b40. lra. }
  assert (NM : n * M <= bpow radix2 47) by (rewrite b40; apply Rle_trans with (1000000 * 10 ^ 6); [apply Rmult_le_compat; lra|lra]).
  assert (N36 : n <= 2 ^ 36) by (simpl; lra).
  assert (Q : 0 < (n + 1) * u <= 1000001 * u) by (split; [apply Rmult_lt_0_compat; lra|apply Rmult_le_compat_r; lra]).
  assert (Q1 : 0 <= n * (25 * bpow radix2 (- (24)) + (n + 1) * u) <= n * 1.499e-6) by (split; [apply Rmult_le_pos; lra|apply Rmult_le_compat_l; lra]).
  destruct (C118_lemma 24 128 f32_prec f32_emax hsin hcos fsin fcos 47 f32_to_f64 f64_to_f32 (bpow radix2 (- (24))) M rays lam x ltac:(lia) ltac:(lia) ltac:(lia) ltac:(lia) f32_to_f64_exact f64_to_f32_rounds
    ltac:(lra) ltac:(lra) ltac:(lra) ltac:(apply M1) NM N36 L2 RS') as (x' & R1 & R2 & R3); try assumption.
  - change (2 * (3 / 10 ^ 6 * n + 3 * n * (25 * bpow radix2 (- (24)) + (n + 1) * u)) <= lam). replace (3 * n * (25 * bpow radix2 (- (24)) + (n + 1) * u)) with (3 * (n * (25 * bpow radix2 (- (24)) + (n + 1) * u))) by ring. lra.
  - exists x'. split; [exact R1|]. split; [exact R2|]. change (INR (@length (Ray C (binary_float 24 128)) rays)) with n in R3.
    refine (fb118 n lam M (vlen x) _ _ 7.5e-6 _ 4.9e-5 _ 0.075 _ ltac:(lra) L0 (vlen_nonneg _) ltac:(lra) _ _ _ _ _ _ R3); lra.
Qed.

(** ** Triangulation *)
Lemma C119a_lemma Z eps X (rays : list (Ray WorldFrame f64)) truth lam :
  let n := INR (length rays) in
  1 <= Z -> 0 <= eps -> (2 <= length rays)%nat -> n <= 1000 ->
  Forall2 (fun r t => seen_persp u 100 10000 500 Z eps X r t \/ seen_ortho u 100 10000 500 Z eps X r t) rays truth ->
  n <= 10 ^ 4 * lam -> eps * n <= 10 * lam -> spread lam truth ->
  exists x', best_intersection_of_rays (fun x : f64 => Some x) (fun x : f64 => x) svd3_try_new rays = Some (Ok (mkPoints [x'])) /\ vec_finite x' /\
    vdist (vreal x') X <= sqrt (n / lam) * Z * (8 / 1000 * eps + 1 / 10 ^ 10) + 4 / 10 ^ 6 * (n / lam) * (1 + vlen X).
Proof.
  intros n Z1 EP L2 N3 SEEN NL EL SP. pose proof u_f64 as U. assert (U0 : 0 < u) by apply bpow_gt_0.
  assert (N2 : 2 <= n) by (apply (le_INR 2); exact L2). assert (L0 : 0 < lam) by lra.
  set (s := 3.5 * ((eps + 13.2 * u * 10000) / 500) + 530 * u * 100).
  assert (S1 : 0 < s) by (unfold s; lra).
  assert (S2 : s <= 7 / 1000 * eps + 2 / 10 ^ 11) by (unfold s; lra).
  set (mu := lam - 2 * s * n).
  assert (SN : 2 * s * n <= 0.141 * lam).
  { apply Rle_trans with (2 * (7 / 1000 * eps + 2 / 10 ^ 11) * n); [apply Rmult_le_compat_r; lra|lra]. }
  assert (MU : 0.859 * lam <= mu) by (unfold mu; lra).
  assert (BB : 512 * 10000 * 100 < bpow radix2 1024) by (apply big_f64; lra).
  assert (Q : 0 < (n + 1) * u <= 1001 * u) by (split; [apply Rmult_lt_0_compat; lra|apply Rmult_le_compat_r; lra]).
  assert (Q1 : 0 <= n * (25 * u + (n + 1) * u) <= n * (1 / 10 ^ 12)) by (split; [apply Rmult_le_pos; lra|apply Rmult_le_compat_l; lra]).
  set (eta := 3 / 10 ^ 6 * n + 3 * n * (25 * u + (n + 1) * u)).
  assert (ET : 0 <= eta <= 3.001e-6 * n) by (unfold eta; replace (3 * n * (25 * u + (n + 1) * u)) with (3 * (n * (25 * u + (n + 1) * u))) by ring; lra).
  destruct (C119_lemma 53 1024 f64_prec f64_emax fsin fcos fsin fcos 40 (fun x : f64 => Some x) (fun x : f64 => x) u 100 10000 500 Z eps X rays truth (1 / 10 ^ 11) lam)
    as (x' & R1 & FX & D); try assumption; try lra; try lia.
  - exact id_exact.
  - exact id_rounds.
  - change (n * (4 * 100) <= bpow radix2 40). replace (bpow radix2 40) with 1099511627776 by (simpl; lra). lra.
  - change (n <= 2 ^ 36). simpl. lra.
  - change (2 * eta <= mu). lra.
  - exists x'. split; [exact R1|]. split; [exact FX|]. eapply Rle_trans; [exact D|]. change (INR (@length (Ray WorldFrame (binary_float 53 1024)) rays)) with n.
    change (3.5 * ((eps + 13.2 * u * 10000) / 500) + 530 * u * 100) with s. change (lam - 2 * s * n) with mu.
    change (3 / 10 ^ 6 * n + 3 * n * (25 * u + (n + 1) * u)) with eta.
    assert (X0 : 0 <= vlen X) by apply vlen_nonneg. pose proof (Rmult_le_pos Z eps ltac:(lra) EP) as ZE.
    assert (T0 : 0 <= 2600 * u * 100 + Z * s) by (apply Rplus_le_le_0_compat; [lra|]; apply Rmult_le_pos; lra).
    assert (ZS : Z * s <= 7 / 1000 * (Z * eps) + 2 / 10 ^ 11 * Z).
    { replace (7 / 1000 * (Z * eps) + 2 / 10 ^ 11 * Z) with (Z * (7 / 1000 * eps + 2 / 10 ^ 11)) by ring. apply Rmult_le_compat_l; lra. }
    eapply Rle_trans; [apply (fb119 n lam mu (vlen X) _ eta 100 _ 3.001e-6 3.28e-6 0.0301 0.859 1.08); try lra|].
    pose proof (sqrt_pos (n / lam)) as SQ0. assert (P0 : 0 < n / lam) by (apply Rdiv_lt_0_compat; lra). set (sq := sqrt (n / lam)) in *. set (p := n / lam) in *. clearbody sq p.
    apply Rplus_le_compat.
    + replace (sq * Z * (8 / 1000 * eps + 1 / 10 ^ 10)) with ((8 / 1000 * (Z * eps) + 1 / 10 ^ 10 * Z) * sq) by ring.
      apply Rmult_le_compat_r; [exact SQ0|].
      apply Rle_trans with ((2600 * u * 100 + Z * s) * 1.12); [apply Rmult_le_compat_l; lra|lra].
    + rewrite (Rmult_comm (4 / 10 ^ 6)), Rmult_assoc. apply Rmult_le_compat_l; [lra|]. lra.
Qed.
Lemma C119b_lemma Z eps X (rays : list (Ray WorldFrame f32)) truth lam :
  let n := INR (length rays) in
  1 <= Z -> 0 <= eps -> (2 <= length rays)%nat -> n <= 1000 ->
  Forall2 (fun r t => seen_persp (bpow radix2 (- (24))) 20 2000 500 Z eps X r t \/ seen_ortho (bpow radix2 (- (24))) 20 2000 500 Z eps X r t) rays truth ->
  n <= 100 * lam -> eps * n <= 10 * lam -> spread lam truth ->
  exists x', best_intersection_of_rays f32_to_f64 f64_to_f32 svd3_try_new rays = Some (Ok (mkPoints [x'])) /\ vec_finite x' /\
    vdist (vreal x') X <= sqrt (n / lam) * Z * (9 / 1000 * eps + 5 / 1000) + (n / lam) * (6 / 1000 + 11 / 10 ^ 6 * vlen X).
Proof.
  intros n Z1 EP L2 N3 SEEN NL EL SP. set (w := bpow radix2 (- (24))) in *. pose proof u_f64 as U. assert (U0 : 0 < u) by apply bpow_gt_0.
  assert (U24 : w = / 16777216) by (unfold w; simpl; lra). assert (Uw : bpow radix2 (- (24)) <= w) by (unfold w; lra).
  assert (N2 : 2 <= n) by (apply (le_INR 2); exact L2). assert (L0 : 0 < lam) by lra.
  set (s := 3.5 * ((eps + 13.2 * w * 2000) / 500) + 530 * w * 20).
  assert (S1 : 0 < s) by (unfold s; lra).
  assert (S2 : s <= 7 / 1000 * eps + 6.43e-4) by (unfold s; lra).
  set (mu := lam - 2 * s * n).
  assert (SN : 2 * s * n <= 0.2687 * lam).
  { apply Rle_trans with (2 * (7 / 1000 * eps + 6.43e-4) * n); [apply Rmult_le_compat_r; lra|lra]. }
  assert (MU : 0.731 * lam <= mu) by (unfold mu; lra).
  assert (BB : 512 * 2000 * 20 < bpow radix2 128).
  { apply Rlt_le_trans with (bpow radix2 40); [simpl; lra|apply bpow_le; lia]. }
  assert (Q : 0 < (n + 1) * u <= 1001 * u) by (split; [apply Rmult_lt_0_compat; lra|apply Rmult_le_compat_r; lra]).
  assert (Q1 : 0 <= n * (25 * w + (n + 1) * u) <= n * 1.4902e-6) by (split; [apply Rmult_le_pos; lra|apply Rmult_le_compat_l; lra]).
  set (eta := 3 / 10 ^ 6 * n + 3 * n * (25 * w + (n + 1) * u)).
  assert (ET : 0 <= eta <= 7.48e-6 * n) by (unfold eta; replace (3 * n * (25 * w + (n + 1) * u)) with (3 * (n * (25 * w + (n + 1) * u))) by ring; lra).
  destruct (C119_lemma 24 128 f32_prec f32_emax hsin hcos fsin fcos 40 f32_to_f64 f64_to_f32 w 20 2000 500 Z eps X rays truth w lam)
    as (x' & R1 & FX & D); try assumption; try lra; try lia.
  - exact f32_to_f64_exact.
  - exact f64_to_f32_rounds.
  - change (n * (4 * 20) <= bpow radix2 40). replace (bpow radix2 40) with 1099511627776 by (simpl; lra). lra.
  - change (n <= 2 ^ 36). simpl. lra.
  - change (2 * eta <= mu). lra.
  - exists x'. split; [exact R1|]. split; [exact FX|]. eapply Rle_trans; [exact D|]. change (INR (@length (Ray WorldFrame (binary_float 24 128)) rays)) with n.
    change (3.5 * ((eps + 13.2 * w * 2000) / 500) + 530 * w * 20) with s. change (lam - 2 * s * n) with mu.
    change (3 / 10 ^ 6 * n + 3 * n * (25 * bpow radix2 (- (24)) + (n + 1) * u)) with eta.
    assert (X0 : 0 <= vlen X) by apply vlen_nonneg. pose proof (Rmult_le_pos Z eps ltac:(lra) EP) as ZE.
    assert (T0 : 0 <= 2600 * w * 20 + Z * s) by (apply Rplus_le_le_0_compat; [lra|]; apply Rmult_le_pos; lra).
    assert (ZS : Z * s <= 7 / 1000 * (Z * eps) + 6.43e-4 * Z).
    { replace (7 / 1000 * (Z * eps) + 6.43e-4 * Z) with (Z * (7 / 1000 * eps + 6.43e-4)) by ring. apply Rmult_le_compat_l; lra. }
    eapply Rle_trans; [apply (fb119 n lam mu (vlen X) _ eta 20 _ 7.48e-6 3.9e-3 7.5e-4 0.731 1.17); try lra|].
    pose proof (sqrt_pos (n / lam)) as SQ0. assert (P0 : 0 < n / lam) by (apply Rdiv_lt_0_compat; lra). set (sq := sqrt (n / lam)) in *. set (p := n / lam) in *. clearbody sq p.
    apply Rplus_le_compat.
    + replace (sq * Z * (9 / 1000 * eps + 5 / 1000)) with ((9 / 1000 * (Z * eps) + 5 / 1000 * Z) * sq) by ring.
      apply Rmult_le_compat_r; [exact SQ0|].
      apply Rle_trans with ((2600 * w * 20 + Z * s) * 1.1713); [apply Rmult_le_compat_l; lra|lra].
    + apply Rmult_le_compat_l; [lra|]. lra.
Qed.
(** ** The program's own pixels *)
Local Notation cam a := (camera_new (perspective_from (fc_k a)) (from_rotation_and_camcenter (fc_qh a) (fc_c a))).
Lemma C119c_lemma X (cams : list (fcam 53 1024)) lam : (2 <= length cams)%nat -> INR (length cams) <= 1000 -> vec_sized 100 X ->
  Forall (good_cam X) cams -> INR (length cams) <= 10 ^ 4 * lam ->
  spread lam (map (fun a => mkRay (Coords := WorldFrame) (vreal (fc_c a)) (vsub (vreal X) (vreal (fc_c a)))) cams) ->
  exists rays,
    Forall2 (fun a r => (p <- world_to_pixel (cam a) (mkPoints [X]) ;; rb <- pixel_to_world (cam a) p ;;
                         @to_single_ray f64 _ _ SharedOrigin_Bundle rb) = Some r) cams rays /\
    exists x', best_intersection_of_rays (fun x : f64 => Some x) (fun x : f64 => x) svd3_try_new rays = Some (Ok (mkPoints [x'])) /\ vec_finite x' /\
      vdist (vreal x') (vreal X) <= 1 / 10 ^ 6 * sqrt (INR (length cams) / lam) + 4 / 10 ^ 6 * (INR (length cams) / lam) * (1 + vlen (vreal X)).
Proof.
  intros L N3 SX G LL SP. assert (N2 : 2 <= INR (length cams)) by (apply (le_INR 2); exact L).
  assert (R : exists rays, Forall2 (fun a r => (p <- world_to_pixel (cam a) (mkPoints [X]) ;; rb <- pixel_to_world (cam a) p ;;
                         @to_single_ray f64 _ _ SharedOrigin_Bundle rb) = Some r) cams rays /\
     Forall2 (fun r t => seen_persp u 100 10000 500 350 (2.9 / 10 ^ 7) (vreal X) r t) rays
       (map (fun a => mkRay (Coords := WorldFrame) (vreal (fc_c a)) (vsub (vreal X) (vreal (fc_c a)))) cams) /\ length rays = length cams).
  { clear L N2 N3 LL SP. induction G as [|a l H _ (rays & A & B & D)]; [exists []; repeat constructor|].
    destruct (own_pixel fsin fcos X a SX H) as (r & E & S). exists (r :: rays). split; [constructor; assumption|]. split; [cbn [map]; constructor; assumption|].
    cbn [length]. now rewrite D. }
  destruct R as (rays & A & B & D). exists rays. split; [exact A|].
  destruct (C119a_lemma 350 (2.9 / 10 ^ 7) (vreal X) rays
    (map (fun a => mkRay (Coords := WorldFrame) (vreal (fc_c a)) (vsub (vreal X) (vreal (fc_c a)))) cams) lam) as (x' & Q & FX & E); try assumption; try lra.
  - now rewrite D.
  - now rewrite D.
  - eapply Forall2_impl'; [|exact B]. intros r t H. now left.
  - now rewrite D.
  - rewrite D. lra.
  - exists x'. split; [exact Q|]. split; [exact FX|]. eapply Rle_trans; [exact E|]. rewrite D. pose proof (sqrt_pos (INR (length cams) / lam)). lra.
Qed.
End F64.
