(** * FloatSvdProofs14.v - intersection of rays with the rounded singular value decomposition (C111) *)

From Coq Require Import ZArith Reals List Bool Lra Lia Psatz.
From Flocq Require Import Core BinarySingleNaN.
From Verif Require Import Scalar Linalg Bundles RayIntersection SymEigen Spec SpecIsect SpecTri SpecFloatErr SpecFloatIsect SpecSvd SpecFloatSvd RealBase VecLemmas ExtrinsicsProofs FloatBase FloatRound FloatErrProofs FloatErrProofs2 FloatApprox FloatDirProofs IsectBase IsectProofs SpectralProofs TriProofs FloatIsectProofs FloatIsectProofs2 FloatIsectProofs3 FloatIsectProofs4.
Import ListNotations.

(** ** The pseudo inverse, for factors which are off by [om] *)
Section Pinv2.
Variables gsin gcos : binary_float 53 1024 -> binary_float 53 1024.
Local Notation F := (binary_float 53 1024).
Local Hint Extern 0 (Ops (binary_float 53 1024)) =>
  exact (B_ops 53 1024 f64_prec f64_emax gsin gcos) : typeclass_instances.
Local Open Scope R_scope.
Local Notation v := (bpow radix2 (- (53))).
Local Notation tiny := (bpow radix2 (2 - 1024)).
Local Notation big := (bpow radix2 1024).
Local Notation fl64 := (fl 53 1024).
Variable om : R.
Hypotheses (W1 : v <= om) (W2 : om <= / 2048).
Local Notation app := (FloatApprox.app 53 1024 om).

Variables (sigma : R) (fu fvt : M33 F) (U Vt : M33 R) (fs : V3 F).
Hypotheses (OU : orthogonal U) (OV : orthogonal Vt).
Hypotheses (NU : mat_near (om) fu U) (NV : mat_near (om) fvt Vt) (FS : vec_finite fs).
Hypotheses (S1 : cutoff < sigma <= 2 ^ 50) (SX : sigma <= B2R (vx fs)) (SY : sigma <= B2R (vy fs)) (SZ : sigma <= B2R (vz fs)).

Lemma inv_w x : is_finite x = true -> sigma <= B2R x -> app (inv_or_zero gsin gcos x) (finv (B2R x)) (/ sigma) 1 /\ finv (B2R x) = / B2R x.
Proof.
  intros FX SX0. destruct (inv_app gsin gcos sigma S1 x FX SX0) as ((r & X & Dr & L) & FV). split; [|exact FV].
  exists r. split; [exact X|]. split; [|exact L]. eapply Rle_trans; [exact Dr|]. apply Rmult_le_compat_r; [|lra]. left. apply Rinv_0_lt_compat. pose proof (sig_pos sigma S1). lra.
Qed.
Lemma near_entry2 x a : near (om) x a -> Rabs a <= 1 -> app x a 1 1.
Proof. intros N A. apply (near_app 53 1024 (om) (om)); [exact N|lra|exact A]. Qed.
Lemma us_app2 x a y b : app x a 1 1 -> app y b (/ sigma) 1 -> app (o_mul x y) (a * b) (/ sigma) (3.2).
Proof.
  intros X Y. rewrite <- (Rmult_1_l (/ sigma)). pose proof (isig sigma S1). pose proof tiny_le. pose proof (big_isig sigma S1).
  apply (app_mul 53 1024 f64_prec f64_emax gsin gcos om W1 W2 x y a b 1 (/ sigma) 1 1); try assumption; try lra.
Qed.
Lemma row_app2 x y z x' y' z' a b c a' b' c' :
  app x a (/ sigma) (3.2) -> app y b (/ sigma) (3.2) -> app z c (/ sigma) (3.2) ->
  app x' a' 1 1 -> app y' b' 1 1 -> app z' c' 1 1 ->
  app (x * x' + y * y' + z * z')%S (a * a' + b * b' + c * c') (3 * / sigma) (8).
Proof.
  intros X Y Z X' Y' Z'. pose proof (isig sigma S1) as I. pose proof tiny_le as T. pose proof (big_isig sigma S1) as B.
  assert (P : forall x x' a a', app x a (/ sigma) (3.2) -> app x' a' 1 1 -> app (o_mul x x') (a * a') (/ sigma * 1) (5.6)).
  { intros. apply (app_mul 53 1024 f64_prec f64_emax gsin gcos om W1 W2 _ _ _ _ (/ sigma) 1 (3.2) 1); try assumption; try lra.
  }
  apply (app_grow 53 1024 om W1) with (W := / sigma * 1 + / sigma * 1 + / sigma * 1) (k := 8); [|lra|lra].
  apply (app_add 53 1024 f64_prec f64_emax gsin gcos om W1 W2 _ _ _ _ (/ sigma * 1 + / sigma * 1) (/ sigma * 1) (6.72) (5.6) (6.72)); try lra.
  2:{ now apply P. }
  apply (app_add 53 1024 f64_prec f64_emax gsin gcos om W1 W2 _ _ _ _ (/ sigma * 1) (/ sigma * 1) (5.6) (5.6) (5.6)); try lra; now apply P.
Qed.

Definition mat_app2 (W k : R) (m : M33 F) (a : M33 R) : Prop :=
  app (m00 m) (m00 a) W k /\ app (m01 m) (m01 a) W k /\ app (m02 m) (m02 a) W k /\
  app (m10 m) (m10 a) W k /\ app (m11 m) (m11 a) W k /\ app (m12 m) (m12 a) W k /\
  app (m20 m) (m20 a) W k /\ app (m21 m) (m21 a) W k /\ app (m22 m) (m22 a) W k.

Lemma pinv_app2 : exists m, svd_pseudo_inverse (mkSVD (Some fu) fs (Some fvt)) lit_1em7 = Some m /\
  mat_app2 (3 * / sigma) (8) m (pinv_of U (vreal fs) Vt).
Proof.
  unfold svd_pseudo_inverse.
  assert (C : o_ltb (lit_1em7 : F) o_zero = false).
  { apply not_true_is_false. intros H. apply (fl_ltb 53 1024 f64_prec f64_emax gsin gcos _ _ _ _ (lit_cutoff gsin gcos) (fl_zero 53 1024 f64_prec f64_emax gsin gcos)) in H.
    pose proof cutoff_pos. lra. }
  rewrite C. cbn [svd_recompose svd_u svd_s svd_vt bind]. eexists. split; [reflexivity|].
  destruct FS as (FX & FY & FZ).
  destruct (inv_w _ FX SX) as (IX & _). destruct (inv_w _ FY SY) as (IY & _). destruct (inv_w _ FZ SZ) as (IZ & _).
  unfold inv_or_zero in IX, IY, IZ.
  destruct NU as (u00 & u01 & u02 & u10 & u11' & u12 & u20 & u21 & u22). destruct NV as (w00 & w01 & w02 & w10 & w11 & w12 & w20 & w21 & w22).
  destruct (orth_entries U OU) as ((a00 & a01 & a02) & (a10 & a11 & a12) & (a20 & a21 & a22)).
  destruct (orth_entries Vt OV) as ((b00 & b01 & b02) & (b10 & b11 & b12) & (b20 & b21 & b22)).
  assert (Q : pinv_of U (vreal fs) Vt = 
    let a := finv (B2R (vx fs)) in let b := finv (B2R (vy fs)) in let c := finv (B2R (vz fs)) in
    mkM33
     (m00 U * a * m00 Vt + m01 U * b * m10 Vt + m02 U * c * m20 Vt) (m10 U * a * m00 Vt + m11 U * b * m10 Vt + m12 U * c * m20 Vt) (m20 U * a * m00 Vt + m21 U * b * m10 Vt + m22 U * c * m20 Vt)
     (m00 U * a * m01 Vt + m01 U * b * m11 Vt + m02 U * c * m21 Vt) (m10 U * a * m01 Vt + m11 U * b * m11 Vt + m12 U * c * m21 Vt) (m20 U * a * m01 Vt + m21 U * b * m11 Vt + m22 U * c * m21 Vt)
     (m00 U * a * m02 Vt + m01 U * b * m12 Vt + m02 U * c * m22 Vt) (m10 U * a * m02 Vt + m11 U * b * m12 Vt + m12 U * c * m22 Vt) (m20 U * a * m02 Vt + m21 U * b * m12 Vt + m22 U * c * m22 Vt)).
  { unfold pinv_of, vreal. cbn [vx vy vz]. cbv zeta. generalize (finv (B2R (vx fs))) (finv (B2R (vy fs))) (finv (B2R (vz fs))). intros a b c.
    clear. destruct U, Vt. unfold mdiag; apply M33_eq; ru_spec; ring. }
  rewrite Q. cbv zeta. unfold mat_app2. cbn [m33_transpose m33_mul m00 m01 m02 m10 m11 m12 m20 m21 m22 vx vy vz].
  repeat split; apply row_app2; first [apply us_app2; [apply near_entry2; assumption|assumption]|apply near_entry2; assumption].
Qed.
End Pinv2.

(** ** The computed intersection *)
Section Main2.
Variables (prec emax : Z) (Hp : Prec_gt_0 prec) (He : Prec_lt_emax prec emax).
Variables fsin fcos : binary_float prec emax -> binary_float prec emax.
Variables gsin gcos : binary_float 53 1024 -> binary_float 53 1024.
Local Notation T := (binary_float prec emax).
Local Notation D := (binary_float 53 1024).
Local Hint Extern 0 (Ops (binary_float prec emax)) =>
  exact (B_ops prec emax Hp He fsin fcos) : typeclass_instances.
Local Hint Extern 0 (Ops (binary_float 53 1024)) =>
  exact (B_ops 53 1024 f64_prec f64_emax gsin gcos) : typeclass_instances.
Local Open Scope R_scope.
Local Notation u := (bpow radix2 (- prec)).
Local Notation v := (bpow radix2 (- (53))).
Local Notation big := (bpow radix2 emax).
Local Notation tiny := (bpow radix2 (2 - emax)).
Hypotheses (P24 : (24 <= prec <= 53)%Z) (E1024 : (emax <= 1024)%Z).
Variable E : Z.
Hypotheses (E0 : (0 <= E)%Z) (E2 : (2 * E + 34 <= emax)%Z).
Variables (to64 : T -> option D) (from64 : D -> T).
Hypotheses (to64_exact : exact_to64 to64) (from64_rounds : rounds_from64 from64).
Let P11 : (11 <= prec)%Z. Proof. lia. Qed.

Variables (om : R).
Hypotheses (UW : u <= om) (WS : om <= / 16000000).
Lemma u_small2 : 0 < u <= / 16000000. Proof. exact (u_small prec P24). Qed.
Lemma v_u2 : 0 < v <= u. Proof. exact (v_u prec P24). Qed.
Lemma from64_near2 y W : is_finite y = true -> Rabs (B2R y) <= W -> tiny <= W -> 2 * W < big ->
  is_finite (from64 y) = true /\ Rabs (B2R (from64 y) - B2R y) <= u * W.
Proof. eapply from64_near; eassumption. Qed.
Lemma V_OM : v <= om. Proof. pose proof v_u2. lra. Qed.
Lemma W11 : om <= / 2048. Proof. lra. Qed.
Section Rays2.
Context {C : Type}.
Variables (M : R) (rays : list (Ray C T)).
Hypotheses (M1 : 1 <= M) (NM : INR (length rays) * M <= bpow radix2 E) (N40 : INR (length rays) <= 2 ^ 40)
  (L2 : (2 <= length rays)%nat) (RS : Forall (ray_sized E M) rays).
Local Notation n := (INR (length rays)).

Lemma n_ge2 : 2 <= n. Proof. eapply n_ge; eassumption. Qed.
Lemma M_le2 : 1 <= M <= bpow radix2 E. Proof. eapply M_le; eassumption. Qed.
Lemma n_le2 : n <= bpow radix2 E. Proof. eapply n_le; eassumption. Qed.
Lemma bigE2 : 2 ^ 33 * bpow radix2 E <= big. Proof. eapply bigE; eassumption. Qed.
Lemma sum_S2 (f : Ray C T -> T) (g : Ray C R -> R) :
  (forall r, ray_sized E M r -> app prec emax u (f r) (g (ray_real r)) 1 25) ->
  exists y, sum_as_f64 to64 (map f rays) = Some y /\ is_finite y = true /\
    Rabs (B2R y - rsum (map g (map ray_real rays))) <= n * (25 * u + (n + 1) * v) /\
    Rabs (rsum (map g (map ray_real rays))) <= n.
Proof. eapply sum_S; eassumption. Qed.
Lemma sum_C2 (f : Ray C T -> T) (g : Ray C R -> R) :
  (forall r, ray_sized E M r -> app prec emax u (f r) (g (ray_real r)) (3 * M) 28.2) ->
  exists y, sum_as_f64 to64 (map f rays) = Some y /\ is_finite (from64 y) = true /\
    Rabs (B2R (from64 y) - rsum (map g (map ray_real rays))) <= 3 * (n * M) * (29.3 * u + (n + 1) * v) /\
    Rabs (B2R (from64 y)) <= 3.01 * (n * M).
Proof. eapply sum_C; eassumption. Qed.

(** the last product *)
Lemma mulv_row2  sigma Wc (p0 p1 p2 c0 c1 c2 : T) a0 a1 a2 :
  let k := 9.1 in let W := 3 * / sigma in
  app prec emax om p0 a0 W k -> app prec emax om p1 a1 W k -> app prec emax om p2 a2 W k ->
  is_finite c0 = true -> is_finite c1 = true -> is_finite c2 = true ->
  Rabs (B2R c0) <= Wc -> Rabs (B2R c1) <= Wc -> Rabs (B2R c2) <= Wc ->
  tiny <= W * Wc -> 12 * (W * Wc) < big ->
  near ((12.22) * om * (3 * (W * Wc))) (p0 * c0 + p1 * c1 + p2 * c2)%S (a0 * B2R c0 + a1 * B2R c1 + a2 * B2R c2).
Proof.
  intros k W A0 A1 A2 F0 F1 F2 B0 B1 B2 TW BW. apply fl_finite in F0, F1, F2.
  assert (W0 : 0 < W * Wc) by (pose proof (bpow_gt_0 radix2 (2 - emax)); lra).
  assert (P : forall p c a, app prec emax om p a W k -> fl prec emax c (B2R c) -> Rabs (B2R c) <= Wc ->
    app prec emax om (o_mul p c) (a * B2R c) (W * Wc) (10.12)).
  { intros p c a A F B. apply (app_mul prec emax Hp He fsin fcos om UW W11 p c a (B2R c) W Wc k 0); try assumption; unfold k; try lra.
    now apply app_exact. }
  apply (app_near prec emax om) with (W := W * Wc + W * Wc + W * Wc) (k := 12.22).
  2:{ apply Req_le. ring. }
  apply (app_add prec emax Hp He fsin fcos om UW W11 _ _ _ _ (W * Wc + W * Wc) (W * Wc) (11.15) (10.12) (11.15)); try lra.
  2:{ now apply P. }
  apply (app_add prec emax Hp He fsin fcos om UW W11 _ _ _ _ (W * Wc) (W * Wc) (10.12) (10.12) (10.12)); try lra; now apply P.
Qed.
Lemma entry_T2  sigma y a : tiny <= 3 * / sigma -> 10 * / sigma < big ->
  app 53 1024 (om) y a (3 * / sigma) (8) -> app prec emax om (from64 y) a (3 * / sigma) (9.1).
Proof.
  intros TW BW (r & (Fy & <-) & Dy & Sy). pose proof v_u2 as VU. pose proof u_small2 as US.
  assert (W0 : 0 < / sigma) by (pose proof (bpow_gt_0 radix2 (2 - emax)); lra).
  assert (S2 : (8) * om <= / 1000) by lra.
  assert (Y1 : Rabs (B2R y) <= 1.001 * (3 * / sigma)).
  { replace (B2R y) with ((B2R y - a) + a) by ring. eapply Rle_trans; [apply tri; eassumption|]. nra. }
  destruct (from64_near2 y (1.001 * (3 * / sigma)) Fy Y1) as (F1 & D1); [lra|lra|].
  exists (B2R (from64 y)). split; [now apply fl_finite|]. split; [|exact Sy].
  replace (B2R (from64 y) - a) with ((B2R (from64 y) - B2R y) + (B2R y - a)) by ring.
  eapply Rle_trans; [apply tri; eassumption|]. assert (u * / sigma <= om * / sigma) by (apply Rmult_le_compat_r; lra). assert (0 < om * / sigma) by (apply Rmult_lt_0_compat; lra). nra.
Qed.

Lemma isect_actual svd eta lam x : 0 <= eta ->
  (forall S d, mat_sized (2 * n) S -> mclose (n * (25 * u + (n + 1) * v)) (mreal S) (Smat (map ray_real rays)) ->
    svd S true true lit_1em7 100%nat = Some d -> decomposes64 eta om S d) ->
  let eta' := eta + 3 * n * (25 * u + (n + 1) * v) in
  cutoff + eta' < lam -> spread lam (map ray_real rays) ->
  (forall y, sum_sq_dist (map ray_real rays) x <= sum_sq_dist (map ray_real rays) y) ->
  let best := best_intersection_of_rays to64 from64 svd rays in
  best <> Some (Err SvdFailed) ->
  exists x', best = Some (Ok (mkPoints [x'])) /\ vec_finite x' /\
    vdist (vreal x') x <= (eta' * vlen x + n * M * (810 * om + 6 * (n + 1) * v)) / (lam - eta').
Proof.
  intros Et0 HS eta' G SP MIN best NF.
  pose proof u_small2 as US. pose proof v_u2 as VU. pose proof n_ge2 as N2. pose proof cutoff_pos as CP.
  set (delta := 25 * u + (n + 1) * v) in *. assert (D0 : 0 < delta) by (unfold delta; nra).
  assert (DS : delta <= / 1000).
  { assert (Q : (n + 1) * v <= / 4000).
    { assert (v2 : v <= / 2 ^ 53) by (simpl; lra). apply Rle_trans with ((2 ^ 40 + 1) * / 2 ^ 53); [apply Rmult_le_compat; lra|]. simpl. lra. }
    unfold delta. lra. }
  assert (E'0 : 0 <= eta') by (unfold eta'; nra).
  assert (ND : nonzero_dirs (map ray_real rays)).
  { unfold nonzero_dirs. rewrite Forall_map. eapply Forall_impl; [|exact RS]. intros r Hr. cbn [ray_real ray_direction].
    now apply (ray_sized_dir prec emax E M). }
  assert (LEN : (2 <= length (map ray_real rays))%nat) by now rewrite map_length.
  assert (WC : well_conditioned (map ray_real rays)) by (apply (spread_well lam); [lra|exact SP]).
  pose proof (minimizer_normal _ x LEN ND WC MIN) as NE. clear MIN.
  pose proof (spread_le lam _ ND SP) as LN. rewrite map_length in LN.
  pose proof (fun r Hr => ray_terms prec emax Hp He fsin fcos P11 E E0 E2 (C := C) M r M_le2 Hr) as RT.
  destruct (sum_S2 t_xx t_xx) as (sxx & Exx & Fxx & Dxx & Bxx); [intros r Hr; apply RT; exact Hr|].
  destruct (sum_S2 t_yy t_yy) as (syy & Eyy & Fyy & Dyy & Byy); [intros r Hr; apply RT; exact Hr|].
  destruct (sum_S2 t_zz t_zz) as (szz & Ezz & Fzz & Dzz & Bzz); [intros r Hr; apply RT; exact Hr|].
  destruct (sum_S2 t_xy t_xy) as (sxy & Exy & Fxy & Dxy & Bxy); [intros r Hr; apply RT; exact Hr|].
  destruct (sum_S2 t_xz t_xz) as (sxz & Exz & Fxz & Dxz & Bxz); [intros r Hr; apply RT; exact Hr|].
  destruct (sum_S2 t_yz t_yz) as (syz & Eyz & Fyz & Dyz & Byz); [intros r Hr; apply RT; exact Hr|].
  destruct (sum_C2 t_cx t_cx) as (scx & Ecx & Fcx & Dcx & Bcx); [intros r Hr; apply RT; exact Hr|].
  destruct (sum_C2 t_cy t_cy) as (scy & Ecy & Fcy & Dcy & Bcy); [intros r Hr; apply RT; exact Hr|].
  destruct (sum_C2 t_cz t_cz) as (scz & Ecz & Fcz & Dcz & Bcz); [intros r Hr; apply RT; exact Hr|].
  fold delta in Dxx, Dyy, Dzz, Dxy, Dxz, Dyz.
  unfold best in *. rewrite isect_unfold in * by exact L2.
  rewrite Exx, Eyy, Ezz, Exy, Exz, Eyz, Ecx, Ecy, Ecz in *. cbn [bind] in *.
  set (S := mkM33 sxx sxy sxz sxy syy syz sxz syz szz) in *.
  unfold my_pinv in *.
  destruct (svd S true true lit_1em7 100%nat) as [d|] eqn:Es; [|exfalso; apply NF; reflexivity].
  assert (SZD : mat_sized (2 * n) S).
  { assert (Q : forall (y : f64) a, is_finite y = true -> Rabs (B2R y - a) <= n * delta -> Rabs a <= n -> sized 0 (2 * n) y).
    { intros y a Fy Dy Sy. split; [exact Fy|]. split; [apply Rabs_pos|]. replace (B2R y) with ((B2R y - a) + a) by ring.
      eapply Rle_trans; [apply tri; eassumption|]. nra. }
    unfold mat_sized, S. cbn [m00 m01 m02 m10 m11 m12 m20 m21 m22]. repeat split; eapply Q; eassumption. }
  assert (MC : mclose (n * delta) (mreal S) (Smat (map ray_real rays))).
  { unfold mclose, mreal, S, Smat. cbn [m00 m01 m02 m10 m11 m12 m20 m21 m22]. repeat split; assumption. }
  destruct (HS S d SZD MC Es) as (fu & fvt & U & Vt & Eu & Ev & OU & OV & NU & NV & FS & P1 & P2 & P3 & DD).
  assert (DA : forall w, vdist (mv (mm (mm U (mdiag (vreal (svd_s d)))) Vt) w) (mv (Smat (map ray_real rays)) w) <= eta' * vlen w).
  { intros w. set (a := mv (mm (mm U (mdiag (vreal (svd_s d)))) Vt) w) in *. 
    specialize (DD w). fold a in DD. assert (nd : 0 <= n * delta) by (apply Rmult_le_pos; lra). pose proof (mclose_mv _ _ _ w nd MC) as MD.
    unfold vdist in *. replace (vsub a (mv (Smat (map ray_real rays)) w)) with
      (vadd (vsub a (mv (mreal S) w)) (vsub (mv (mreal S) w) (mv (Smat (map ray_real rays)) w))) by (generalize (mv (mreal S) w) (mv (Smat (map ray_real rays)) w); intros; clearbody a; vring).
    eapply Rle_trans; [apply vlen_triangle|]. unfold eta'. lra. }
  destruct (perturb (map ray_real rays) U (vreal (svd_s d)) Vt eta' lam x E'0 ND OU OV P1 P2 P3 DA G SP NE) as ((S1 & S2 & S3) & PB).
  set (sigma := lam - eta') in *. cbn [vreal vx vy vz] in S1, S2, S3.
  assert (SG : cutoff < sigma <= 2 ^ 50).
  { unfold sigma. split; [lra|]. assert (2 ^ 40 <= 2 ^ 50) by (simpl; lra). lra. }
  assert (Edd : d = mkSVD (Some fu) (svd_s d) (Some fvt)) by (destruct d; cbn in *; congruence).
  destruct (pinv_app2 gsin gcos om V_OM W11 sigma fu fvt U Vt (svd_s d) OU OV NU NV FS SG S1 S2 S3) as (P & EP & AP).
  rewrite <- Edd in EP. rewrite EP in *. cbn [bind] in *.
  set (c := mkV3 (from64 scx) (from64 scy) (from64 scz)) in *.
  eexists. split; [reflexivity|].
  assert (I1 : 0 < / sigma) by (apply Rinv_0_lt_compat; lra).
  assert (In : / n <= / sigma) by (apply Rinv_le_contravar; unfold sigma; lra).
  assert (I24 : / sigma <= 2 ^ 24) by (apply (isig sigma SG)).
  pose proof n_le2 as NLE. pose proof bigE2 as BE. pose proof M1 as M1'. pose proof NM as NM'.
  assert (nM : 2 <= n * M) by nra.
  assert (T1 : tiny <= 3 * / sigma).
  { apply Rle_trans with (bpow radix2 (- E)); [apply bpow_le; lia|]. apply Rle_trans with (/ n); [|lra].
    rewrite bpow_opp. apply Rinv_le_contravar; lra. }
  assert (BG : 10 * / sigma < big).
  { assert (10 * 2 ^ 24 < 2 ^ 33) by (simpl; lra). pose proof (bpow_le radix2 0 E E0) as B0. simpl (bpow radix2 0) in B0. lra. }
  set (W := 3 * / sigma * (3.01 * (n * M))).
  assert (TW : tiny <= W).
  { apply Rle_trans with 1; [apply (bpow_le radix2 _ 0); lia|]. unfold W.
    apply Rle_trans with (3 * / n * (3.01 * (n * M))); [|apply Rmult_le_compat_r; lra].
    replace (3 * / n * (3.01 * (n * M))) with (3 * 3.01 * (/ n * n) * M) by ring. rewrite Rinv_l by lra. lra. }
  assert (BW : 12 * W < big).
  { unfold W. assert (Q : 12 * (3 * 2 ^ 24 * (3.01 * bpow radix2 E)) < big).
    { assert (109 * 2 ^ 24 < 2 ^ 33) by (simpl; lra). pose proof (bpow_gt_0 radix2 E). lra. }
    eapply Rle_lt_trans; [|exact Q]. apply Rmult_le_compat_l; [lra|]. apply Rmult_le_compat; lra. }
  destruct AP as (A00 & A01 & A02 & A10 & A11 & A12 & A20 & A21 & A22).
  pose proof (fun y a => entry_T2 sigma y a T1 BG) as ET.
  pose proof (ET _ _ A00) as Q00. pose proof (ET _ _ A01) as Q01. pose proof (ET _ _ A02) as Q02.
  pose proof (ET _ _ A10) as Q10. pose proof (ET _ _ A11) as Q11. pose proof (ET _ _ A12) as Q12.
  pose proof (ET _ _ A20) as Q20. pose proof (ET _ _ A21) as Q21. pose proof (ET _ _ A22) as Q22.
  pose proof (mulv_row2 sigma _ _ _ _ _ _ _ _ _ _ Q00 Q01 Q02 Fcx Fcy Fcz Bcx Bcy Bcz TW BW) as (R0 & V0).
  pose proof (mulv_row2 sigma _ _ _ _ _ _ _ _ _ _ Q10 Q11 Q12 Fcx Fcy Fcz Bcx Bcy Bcz TW BW) as (R1 & V1).
  pose proof (mulv_row2 sigma _ _ _ _ _ _ _ _ _ _ Q20 Q21 Q22 Fcx Fcy Fcz Bcx Bcy Bcz TW BW) as (R2 & V2).
  split; [now repeat split|].
  set (z := m33_mulv _ _) in *.
  set (e1 := 12.22 * om * (3 * W)) in *. 
  fold W in V0, V1, V2. fold e1 in V0, V1, V2.
  assert (W0 : 0 < W) by (pose proof (bpow_gt_0 radix2 (2 - emax)); lra).
  assert (e10 : 0 <= e1) by (unfold e1; apply Rmult_le_pos; [apply Rmult_le_pos|]; lra).
  assert (L1 : vlen (vsub (vreal z) (mv (pinv_of U (vreal (svd_s d)) Vt) (vreal c))) <= 1.75 * e1).
  { apply vlen_bound; [exact e10|..]; clear - V0 V1 V2; [exact V0|exact V1|exact V2]. }
  set (e2 := 3 * (n * M) * (29.3 * u + (n + 1) * v)) in *.
  assert (e20 : 0 <= e2) by (unfold e2; assert (0 <= (n + 1) * v) by (apply Rmult_le_pos; lra); apply Rmult_le_pos; lra).
  assert (L3 : vdist (vreal c) (Cvec (map ray_real rays)) <= 1.75 * e2).
  { unfold vdist. apply vlen_bound; [exact e20|exact Dcx|exact Dcy|exact Dcz]. }
  specialize (PB (vreal c)).
  unfold vdist in *. set (y := mv (pinv_of U (vreal (svd_s d)) Vt) (vreal c)) in *.
  replace (vsub (vreal z) x) with (vadd (vsub (vreal z) y) (vsub y x)) by (clearbody y z; generalize (vreal z); intros; vring).
  eapply Rle_trans; [apply vlen_triangle|]. eapply Rle_trans; [apply Rplus_le_compat; [exact L1|exact PB]|].
  assert (XX : 1.75 * e1 = (1.75 * (12.22 * om * (3 * (3 * (3.01 * (n * M)))))) / sigma) by (unfold e1, W; field; lra).
  rewrite XX. unfold Rdiv. rewrite <- Rmult_plus_distr_r. apply Rmult_le_compat_r; [lra|].
  assert (L4 : vdist (vreal c) (Cvec (map ray_real rays)) <= 1.75 * (3 * (n * M) * (29.3 * om + (n + 1) * v))).
  { eapply Rle_trans; [exact L3|]. unfold e2. apply Rmult_le_compat_l; [lra|]. apply Rmult_le_compat_l; lra. }
  unfold vdist in L4. clear L3. rename L4 into L3. generalize (vlen (vsub (vreal c) (Cvec (map ray_real rays)))) L3. intros t Lt.
  rewrite (Rmult_assoc 6). replace (810 * om) with ((110 * 1 + 700) * om) by ring. replace 12.22 with (2.22 * 1 + 10) by lra. apply final_num; [lra| | lra | lra | | exact Lt].
  - apply Rmult_le_pos; [exact E'0|apply sqrt_pos].
  - apply Rmult_le_pos; lra.
Qed.
End Rays2.
End Main2.

