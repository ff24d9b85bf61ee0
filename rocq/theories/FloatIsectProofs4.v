(** * FloatIsectProofs4.v - rounding errors of best_intersection_of_rays (C91) *)

From Coq Require Import ZArith Reals List Bool Lra Lia Psatz.
From Flocq Require Import Core BinarySingleNaN.
From Verif Require Import Scalar Linalg Bundles RayIntersection Spec SpecIsect SpecTri SpecFloatErr SpecFloatIsect RealBase VecLemmas ExtrinsicsProofs FloatBase FloatRound FloatErrProofs FloatApprox FloatDirProofs IsectBase IsectProofs SpectralProofs TriProofs FloatIsectProofs FloatIsectProofs2 FloatIsectProofs3.
Import ListNotations.

(** ** Perturbed normal equations in exact arithmetic *)
Section Perturb.
Local Open Scope R_scope.

Lemma vlen_triangle a b : vlen (vadd a b) <= vlen a + vlen b.
Proof.
  pose proof (vlen_nonneg a). pose proof (vlen_nonneg b). apply Rsqr_incr_0_var; [|lra]. unfold Rsqr.
  rewrite vlen_sq. replace (vdot (vadd a b) (vadd a b)) with (vdot a a + 2 * vdot a b + vdot b b) by vring.
  rewrite <- !vlen_sq. pose proof (cauchy a b) as Ca. pose proof (Rle_abs (vdot a b)). lra.
Qed.
Lemma sv_ge m U s Vt t0 : is_svd m U s Vt -> (forall v, vlen v = 1 -> t0 <= - vdot v (mv m v)) ->
  t0 <= vx s /\ t0 <= vy s /\ t0 <= vz s.
Proof.
  intros (O1 & O2 & S1 & S2 & S3 & M) H.
  assert (K : forall e t, vlen e = 1 -> 0 <= t -> mv (mdiag s) e = vscl t e -> t0 <= t).
  { intros e t Le T0 De. set (v := mv (mtr Vt) e).
    assert (Lv : vlen v = 1) by (unfold v; rewrite orthogonal_len; [exact Le|now apply orthogonal_mtr]).
    specialize (H v Lv). eapply Rle_trans; [exact H|].
    replace (- vdot v (mv m v)) with (vdot (vopp (mv m v)) v) by vring.
    eapply Rle_trans; [now apply vlen_le_dot|]. right.
    replace (vopp (mv m v)) with (vscl (-1) (mv m v)) by vring. rewrite vlen_vscl.
    rewrite <- M, !mv_mm. unfold v. rewrite (orthogonal_inv_r Vt) by exact O2.
    rewrite orthogonal_len by exact O1. rewrite De, vlen_vscl, Le, (Rabs_pos_eq t) by exact T0.
    rewrite Rabs_left by lra. ring. }
  repeat split.
  - apply (K E1); [apply E_len; auto|exact S1|]. rewrite mdiag_mv. unfold E1; apply V3_eq; ru_spec; ring.
  - apply (K E2); [apply E_len; auto|exact S2|]. rewrite mdiag_mv. unfold E2; apply V3_eq; ru_spec; ring.
  - apply (K E3); [apply E_len; auto|exact S3|]. rewrite mdiag_mv. unfold E3; apply V3_eq; ru_spec; ring.
Qed.

Lemma perturb {C} (rays : list (Ray C R)) U s Vt eta lam x : 0 <= eta -> nonzero_dirs rays ->
  orthogonal U -> orthogonal Vt -> 0 <= vx s -> 0 <= vy s -> 0 <= vz s ->
  (forall w, vdist (mv (mm (mm U (mdiag s)) Vt) w) (mv (Smat rays) w) <= eta * vlen w) ->
  cutoff + eta < lam -> spread lam rays -> mv (Smat rays) x = Cvec rays ->
  (lam - eta <= vx s /\ lam - eta <= vy s /\ lam - eta <= vz s) /\
  forall c, vdist (mv (pinv_of U s Vt) c) x <= (vdist c (Cvec rays) + eta * vlen x) / (lam - eta).
Proof.
  intros E0 N O1 O2 P1 P2 P3 D G H S. pose proof cutoff_pos as CP.
  set (m := mm (mm U (mdiag s)) Vt) in *.
  assert (Dm : is_svd m U s Vt) by (repeat split; auto; apply O1 || apply O2).
  assert (Low : forall w, (lam - eta) * vdot w w <= - vdot w (mv m w)).
  { intros w. pose proof (spread_all lam rays w N H) as Q. rewrite sum_sq_sin_quad in Q by exact N.
    pose proof (cauchy w (vsub (mv m w) (mv (Smat rays) w))) as Ca. specialize (D w). unfold vdist in D.
    rewrite vdot_vsub_r in Ca. pose proof (vlen_nonneg w) as W0.
    assert (Ca2 : vlen w * vlen (vsub (mv m w) (mv (Smat rays) w)) <= eta * vdot w w).
    { rewrite <- vlen_sq. apply Rle_trans with (vlen w * (eta * vlen w)); [now apply Rmult_le_compat_l|lra]. }
    pose proof (Rle_abs (vdot w (mv m w) - vdot w (mv (Smat rays) w))). lra. }
  assert (SV : lam - eta <= vx s /\ lam - eta <= vy s /\ lam - eta <= vz s).
  { apply (sv_ge m U s Vt _ Dm). intros v Hv. specialize (Low v). rewrite <- vlen_sq, Hv in Low. lra. }
  split; [exact SV|]. destruct SV as (A1 & A2 & A3). intros c.
  set (x' := mv (pinv_of U s Vt) c).
  assert (Q : mv m x' = c) by (unfold x'; apply (pinv_full_r m U s Vt c Dm); lra).
  set (w := vsub x' x).
  assert (Mw : mv m w = vadd (vsub c (Cvec rays)) (vscl (-1) (vsub (mv m x) (mv (Smat rays) x)))).
  { unfold w. rewrite mv_vsub, Q, S. generalize (mv m x) (Cvec rays). intros. vring. }
  assert (B : vlen (mv m w) <= vdist c (Cvec rays) + eta * vlen x).
  { rewrite Mw. eapply Rle_trans; [apply vlen_triangle|]. rewrite vlen_vscl, Rabs_left by lra. specialize (D x). unfold vdist in *. lra. }
  unfold vdist. fold w. specialize (Low w). pose proof (cauchy w (mv m w)) as Ca.
  pose proof (Rle_abs (- vdot w (mv m w))) as Ab. rewrite Rabs_Ropp in Ab. rewrite <- vlen_sq in Low.
  pose proof (vlen_nonneg w) as W0. apply (Rmult_le_reg_l (lam - eta)); [lra|].
  replace ((lam - eta) * ((vlen (vsub c (Cvec rays)) + eta * vlen x) / (lam - eta))) with (vlen (vsub c (Cvec rays)) + eta * vlen x) by (field; lra).
  apply Rle_trans with (vlen (mv m w)); [|exact B].
  destruct (Req_dec (vlen w) 0) as [Z|Z]; [rewrite Z, Rmult_0_r; apply vlen_nonneg|].
  apply (Rmult_le_reg_l (vlen w)); [lra|]. lra.
Qed.

Lemma spread_le {C} lam (rays : list (Ray C R)) : nonzero_dirs rays -> spread lam rays -> lam <= INR (length rays).
Proof.
  intros N H. specialize (H E1 (E_len E1 (or_introl eq_refl))). eapply Rle_trans; [exact H|]. clear H.
  induction rays as [|r rays IH]; [unfold sum_sq_sin, rsum; cbn; lra|].
  inversion N as [|? ? N1 N2]; subst. unfold sum_sq_sin in *. rewrite rsum_cons. cbn [length]. rewrite S_INR. specialize (IH N2).
  assert (line_dist2 E1 vO (ray_direction r) <= 1); [|lra].
  unfold line_dist2. rewrite vsub_0_r, cross_dist by exact N1.
  replace (vdot E1 E1) with 1 by (unfold E1; ru_spec; ring). nra.
Qed.

(** from coordinates to lengths *)
Lemma vlen_bound a e : 0 <= e -> Rabs (vx a) <= e -> Rabs (vy a) <= e -> Rabs (vz a) <= e -> vlen a <= 1.75 * e.
Proof.
  intros E0 A B D. apply Rsqr_incr_0_var; [|lra]. unfold Rsqr. rewrite vlen_sq. unfold vdot.
  assert (K : forall t, Rabs t <= e -> t * t <= e * e).
  { intros t T. replace (t * t) with (Rabs t * Rabs t) by (rewrite <- Rabs_mult; apply Rabs_pos_eq; nra).
    pose proof (Rabs_pos t). now apply Rmult_le_compat. }
  pose proof (K _ A). pose proof (K _ B). pose proof (K _ D). nra.
Qed.
Definition mclose (e : R) (a b : M33 R) : Prop :=
  Rabs (m00 a - m00 b) <= e /\ Rabs (m01 a - m01 b) <= e /\ Rabs (m02 a - m02 b) <= e /\
  Rabs (m10 a - m10 b) <= e /\ Rabs (m11 a - m11 b) <= e /\ Rabs (m12 a - m12 b) <= e /\
  Rabs (m20 a - m20 b) <= e /\ Rabs (m21 a - m21 b) <= e /\ Rabs (m22 a - m22 b) <= e.
Lemma mclose_mv e a b w : 0 <= e -> mclose e a b -> vdist (mv a w) (mv b w) <= 3 * e * vlen w.
Proof.
  intros E0 (A0 & A1 & A2 & B0 & B1 & B2 & D0 & D1 & D2).
  assert (K : forall p q r p' q' r', Rabs (p - p') <= e -> Rabs (q - q') <= e -> Rabs (r - r') <= e ->
    ((p - p') * vx w + (q - q') * vy w + (r - r') * vz w) * ((p - p') * vx w + (q - q') * vy w + (r - r') * vz w) <= 3 * (e * e) * vdot w w).
  { intros p q r p' q' r' HP HQ HR. set (f := mkV3 (p - p') (q - q') (r - r')).
    replace ((p - p') * vx w + (q - q') * vy w + (r - r') * vz w) with (vdot f w) by (unfold f, vdot; cbn [vx vy vz]; ring).
    pose proof (lagrange f w) as L. pose proof (vdot_self_nonneg (vcross f w)) as N. pose proof (vdot_self_nonneg w) as NW.
    assert (FF : vdot f f <= 3 * (e * e)).
    { unfold f, vdot; cbn [vx vy vz]. apply Rabs_le_inv in HP, HQ, HR. nra. }
    apply Rle_trans with (vdot f f * vdot w w); [lra|]. now apply Rmult_le_compat_r. }
  unfold vdist. pose proof (vlen_nonneg w) as NW. apply Rsqr_incr_0_var; [|apply Rmult_le_pos; lra]. unfold Rsqr. rewrite vlen_sq.
  pose proof (K _ _ _ _ _ _ A0 A1 A2) as K0. pose proof (K _ _ _ _ _ _ B0 B1 B2) as K1. pose proof (K _ _ _ _ _ _ D0 D1 D2) as K2.
  replace (3 * e * vlen w * (3 * e * vlen w)) with (9 * (e * e) * (vlen w * vlen w)) by ring. rewrite vlen_sq.
  clear - K0 K1 K2. destruct w as [x y z], a, b. ru_spec. lra.
Qed.
End Perturb.

(** ** The computed intersection *)
Section Main.
Variables (prec emax : Z) (Hp : Prec_gt_0 prec) (He : Prec_lt_emax prec emax).
Variables fsin fcos : binary_float prec emax -> binary_float prec emax.
Variables gsin gcos : binary_float 53 1024 -> binary_float 53 1024.
Local Notation T := (binary_float prec emax).
Local Notation D := (binary_float 53 1024).
Local Hint Extern 0 (Ops (binary_float prec emax)) =>
  exact (B_ops prec emax Hp He fsin fcos) : typeclass_instances.
Local Hint Extern 0 (Ops (binary_float 53 1024)) =>
  exact (B_ops 53 1024 f64_prec f64_emax gsin gcos) : typeclass_instances.
Local Open Scope R_scope.
Local Notation u := (bpow radix2 (- prec)).
Local Notation v := (bpow radix2 (- (53))).
Local Notation big := (bpow radix2 emax).
Local Notation tiny := (bpow radix2 (2 - emax)).
Hypotheses (P24 : (24 <= prec <= 53)%Z) (E1024 : (emax <= 1024)%Z).
Variable E : Z.
Hypotheses (E0 : (0 <= E)%Z) (E2 : (2 * E + 34 <= emax)%Z).
Variables (to64 : T -> option D) (from64 : D -> T).
Hypotheses (to64_exact : exact_to64 to64) (from64_rounds : rounds_from64 from64).
Let P11 : (11 <= prec)%Z. Proof. lia. Qed.

Lemma u_small : 0 < u <= / 16000000.
Proof.
  split; [apply bpow_gt_0|]. apply Rle_trans with (bpow radix2 (-24)); [apply bpow_le; lia|]. simpl. lra.
Qed.
Lemma v_u : 0 < v <= u. Proof. split; [apply bpow_gt_0|apply bpow_le; lia]. Qed.

Lemma from64_near y W : is_finite y = true -> Rabs (B2R y) <= W -> tiny <= W -> 2 * W < big ->
  is_finite (from64 y) = true /\ Rabs (B2R (from64 y) - B2R y) <= u * W.
Proof.
  intros FY A TW BW. pose proof u_small as US.
  destruct (rnd_near prec emax Hp (B2R y) W TW A) as (N1 & N2).
  assert (W0 : 0 < W) by (pose proof (bpow_gt_0 radix2 (2 - emax)); lra).
  destruct (from64_rounds y FY) as (F1 & V1).
  - eapply Rle_lt_trans; [exact N2|]. nra.
  - split; [exact F1|]. rewrite V1. exact N1.
Qed.

Lemma app_fin (x : T) a W k : app prec emax u x a W k -> is_finite x = true /\ Rabs (B2R x - a) <= k * u * W /\ Rabs a <= W.
Proof. intros (r & (F & <-) & DD & L). auto. Qed.

Section Rays.
Context {C : Type}.
Variables (M : R) (rays : list (Ray C T)).
Hypotheses (M1 : 1 <= M) (NM : INR (length rays) * M <= bpow radix2 E) (N40 : INR (length rays) <= 2 ^ 40)
  (L2 : (2 <= length rays)%nat) (RS : Forall (ray_sized E M) rays).
Local Notation n := (INR (length rays)).

Lemma n_ge : 2 <= n. Proof. change 2 with (INR 2). now apply le_INR. Qed.
Lemma M_le : 1 <= M <= bpow radix2 E. Proof. pose proof n_ge. split; [exact M1|]. nra. Qed.
Lemma n_le : n <= bpow radix2 E. Proof. pose proof n_ge. pose proof M1. nra. Qed.
Lemma bigE : 2 ^ 33 * bpow radix2 E <= big.
Proof.
  replace (2 ^ 33) with (bpow radix2 33) by (simpl; lra). rewrite <- bpow_plus. apply bpow_le. lia.
Qed.
Lemma bigE64 : 2 ^ 33 * bpow radix2 E <= bpow radix2 1024.
Proof. eapply Rle_trans; [apply bigE|]. apply bpow_le. lia. Qed.

Lemma sum_S (f : Ray C T -> T) (g : Ray C R -> R) :
  (forall r, ray_sized E M r -> app prec emax u (f r) (g (ray_real r)) 1 25) ->
  exists y, sum_as_f64 to64 (map f rays) = Some y /\ is_finite y = true /\
    Rabs (B2R y - rsum (map g (map ray_real rays))) <= n * (25 * u + (n + 1) * v) /\
    Rabs (rsum (map g (map ray_real rays))) <= n.
Proof.
  intros H. rewrite map_map. pose proof u_small as US. pose proof n_ge. pose proof n_le. pose proof bigE64.
  assert (2 ^ 33 > 4) by (simpl; lra). pose proof (bpow_gt_0 radix2 E).
  destruct (sum_total prec emax gsin gcos to64 to64_exact 1 (25 * u) rays f (fun r => g (ray_real r))) as (y & Ey & Fy & Dy & Sy).
  - lra.
  - lra.
  - eapply Forall_impl; [|exact RS]. intros r Hr. destruct (app_fin _ _ _ _ (H r Hr)) as (A & B & B'). repeat split; [exact A|lra|exact B'].
  - exact N40.
  - nra.
  - exists y. repeat split; [exact Ey|exact Fy|lra|lra].
Qed.
Lemma sum_C (f : Ray C T -> T) (g : Ray C R -> R) :
  (forall r, ray_sized E M r -> app prec emax u (f r) (g (ray_real r)) (3 * M) 28.2) ->
  exists y, sum_as_f64 to64 (map f rays) = Some y /\ is_finite (from64 y) = true /\
    Rabs (B2R (from64 y) - rsum (map g (map ray_real rays))) <= 3 * (n * M) * (29.3 * u + (n + 1) * v) /\
    Rabs (B2R (from64 y)) <= 3.01 * (n * M).
Proof.
  intros H. rewrite map_map. pose proof u_small as US. pose proof n_ge. pose proof n_le. pose proof bigE64. pose proof bigE.
  assert (2 ^ 33 > 1000) by (simpl; lra). pose proof (bpow_gt_0 radix2 E). pose proof v_u as VU.
  assert (NMp : 2 <= n * M) by nra.
  destruct (sum_total prec emax gsin gcos to64 to64_exact (3 * M) (28.2 * u * (3 * M)) rays f (fun r => g (ray_real r))) as (y & Ey & Fy & Dy & Sy).
  - lra.
  - nra.
  - eapply Forall_impl; [|exact RS]. intros r Hr. destruct (app_fin _ _ _ _ (H r Hr)) as (A & B & B'). repeat split; [exact A|lra|exact B'].
  - exact N40.
  - nra.
  - assert (Q : (n + 1) * v <= / 4000).
    { assert (v2 : v <= / 2 ^ 53) by (simpl; lra). apply Rle_trans with ((2 ^ 40 + 1) * / 2 ^ 53); [apply Rmult_le_compat; lra|]. simpl. lra. }
    assert (Q1 : n * (28.2 * u * (3 * M)) + n * (n + 1) * v * (3 * M) = 3 * (n * M) * (28.2 * u + (n + 1) * v)) by ring.
    assert (Y1 : Rabs (B2R y) <= 3.001 * (n * M)).
    { replace (B2R y) with ((B2R y - rsum (map (fun r => g (ray_real r)) rays)) + rsum (map (fun r => g (ray_real r)) rays)) by ring.
      eapply Rle_trans; [apply tri; [exact Dy|exact Sy]|]. rewrite Q1. assert (28.2 * u + (n + 1) * v <= / 3900) by lra. nra. }
    destruct (from64_near y (3.001 * (n * M)) Fy Y1) as (F1 & D1).
    { apply Rle_trans with 1; [|lra]. apply (bpow_le radix2 _ 0). lia. } { nra. }
    exists y. split; [exact Ey|]. split; [exact F1|]. split.
    + replace (B2R (from64 y) - rsum (map (fun r => g (ray_real r)) rays)) with
        ((B2R (from64 y) - B2R y) + (B2R y - rsum (map (fun r => g (ray_real r)) rays))) by ring.
      eapply Rle_trans; [apply tri; [exact D1|exact Dy]|]. rewrite Q1. nra.
    + replace (B2R (from64 y)) with ((B2R (from64 y) - B2R y) + B2R y) by ring.
      eapply Rle_trans; [apply tri; [exact D1|exact Y1]|]. nra.
Qed.

(** the last product *)
Lemma mulv_row kappa sigma Wc (p0 p1 p2 c0 c1 c2 : T) a0 a1 a2 : 0 <= kappa <= 100 ->
  let k := 2.2 * kappa + 6.9 in let W := 3 * / sigma in
  app prec emax u p0 a0 W k -> app prec emax u p1 a1 W k -> app prec emax u p2 a2 W k ->
  is_finite c0 = true -> is_finite c1 = true -> is_finite c2 = true ->
  Rabs (B2R c0) <= Wc -> Rabs (B2R c1) <= Wc -> Rabs (B2R c2) <= Wc ->
  tiny <= W * Wc -> 12 * (W * Wc) < big ->
  near ((2.22 * kappa + 10) * u * (3 * (W * Wc))) (p0 * c0 + p1 * c1 + p2 * c2)%S (a0 * B2R c0 + a1 * B2R c1 + a2 * B2R c2).
Proof.
  intros K k W A0 A1 A2 F0 F1 F2 B0 B1 B2 TW BW. apply fl_finite in F0, F1, F2.
  assert (W0 : 0 < W * Wc) by (pose proof (bpow_gt_0 radix2 (2 - emax)); lra).
  assert (P : forall p c a, app prec emax u p a W k -> fl prec emax c (B2R c) -> Rabs (B2R c) <= Wc ->
    app prec emax u (o_mul p c) (a * B2R c) (W * Wc) (2.205 * kappa + 7.91)).
  { intros p c a A F B. apply (app_mul prec emax Hp He fsin fcos _ (Rle_refl _) (u11 prec P11) p c a (B2R c) W Wc k 0); try assumption; unfold k; try lra.
    now apply app_exact. }
  apply (app_near prec emax (bpow radix2 (- prec))) with (W := W * Wc + W * Wc + W * Wc) (k := 2.22 * kappa + 10).
  2:{ apply Req_le. ring. }
  apply (app_add prec emax Hp He fsin fcos _ (Rle_refl _) (u11 prec P11) _ _ _ _ (W * Wc + W * Wc) (W * Wc) (2.208 * kappa + 8.93) (2.205 * kappa + 7.91) (2.208 * kappa + 8.93)); try lra.
  2:{ now apply P. }
  apply (app_add prec emax Hp He fsin fcos _ (Rle_refl _) (u11 prec P11) _ _ _ _ (W * Wc) (W * Wc) (2.205 * kappa + 7.91) (2.205 * kappa + 7.91) (2.205 * kappa + 7.91)); try lra; now apply P.
Qed.
Lemma entry_T kappa sigma y a : 0 <= kappa <= 100 -> tiny <= 3 * / sigma -> 10 * / sigma < big ->
  app 53 1024 (bpow radix2 (- (53))) y a (3 * / sigma) (2.2 * kappa + 5.8) -> app prec emax u (from64 y) a (3 * / sigma) (2.2 * kappa + 6.9).
Proof.
  intros K TW BW (r & (Fy & <-) & Dy & Sy). pose proof v_u as VU. pose proof u_small as US.
  assert (W0 : 0 < / sigma) by (pose proof (bpow_gt_0 radix2 (2 - emax)); lra).
  assert (D2 : (2.2 * kappa + 5.8) * v * (3 * / sigma) <= (2.2 * kappa + 5.8) * u * (3 * / sigma)).
  { apply Rmult_le_compat_r; [lra|]. apply Rmult_le_compat_l; lra. }
  assert (S2 : (2.2 * kappa + 5.8) * u <= / 1000) by nra.
  assert (Y1 : Rabs (B2R y) <= 1.001 * (3 * / sigma)).
  { replace (B2R y) with ((B2R y - a) + a) by ring. eapply Rle_trans; [apply tri; eassumption|]. nra. }
  destruct (from64_near y (1.001 * (3 * / sigma)) Fy Y1) as (F1 & D1); [lra|lra|].
  exists (B2R (from64 y)). split; [now apply fl_finite|]. split; [|exact Sy].
  replace (B2R (from64 y) - a) with ((B2R (from64 y) - B2R y) + (B2R y - a)) by ring.
  eapply Rle_trans; [apply tri; eassumption|]. assert (0 < u * / sigma) by nra. nra.
Qed.

Lemma final_num kappa a A x y t : 0 <= kappa -> 0 <= a -> 0 <= A -> 0 <= x -> 0 <= y ->
  t <= 1.75 * (3 * A * (29.3 * x + y)) ->
  1.75 * ((2.22 * kappa + 10) * x * (3 * (3 * (3.01 * A)))) + (t + a) <= a + A * ((110 * kappa + 700) * x + 6 * y).
Proof.
  intros. assert (0 <= A * x) by nra. assert (0 <= A * y) by nra. assert (0 <= kappa * (A * x)) by nra. lra.
Qed.

Lemma C91_lemma svd eta kappa lam x : 0 <= eta -> 0 <= kappa <= 100 -> svd_near (2 * n) eta (kappa * v) svd ->
  let eta' := eta + 3 * n * (25 * u + (n + 1) * v) in
  cutoff + eta' < lam -> spread lam (map ray_real rays) ->
  (forall y, sum_sq_dist (map ray_real rays) x <= sum_sq_dist (map ray_real rays) y) ->
  let best := best_intersection_of_rays to64 from64 svd rays in
  best <> Some (Err SvdFailed) ->
  exists x', best = Some (Ok (mkPoints [x'])) /\ vec_finite x' /\
    vdist (vreal x') x <= (eta' * vlen x + n * M * ((110 * kappa + 700) * u + 6 * (n + 1) * v)) / (lam - eta').
Proof.
  intros Et0 K HS eta' G SP MIN best NF.
  pose proof u_small as US. pose proof v_u as VU. pose proof n_ge as N2. pose proof cutoff_pos as CP.
  set (delta := 25 * u + (n + 1) * v) in *. assert (D0 : 0 < delta) by (unfold delta; nra).
  assert (DS : delta <= / 1000).
  { assert (Q : (n + 1) * v <= / 4000).
    { assert (v2 : v <= / 2 ^ 53) by (simpl; lra). apply Rle_trans with ((2 ^ 40 + 1) * / 2 ^ 53); [apply Rmult_le_compat; lra|]. simpl. lra. }
    unfold delta. lra. }
  assert (E'0 : 0 <= eta') by (unfold eta'; nra).
  assert (ND : nonzero_dirs (map ray_real rays)).
  { unfold nonzero_dirs. rewrite Forall_map. eapply Forall_impl; [|exact RS]. intros r Hr. cbn [ray_real ray_direction].
    now apply (ray_sized_dir prec emax E M). }
  assert (LEN : (2 <= length (map ray_real rays))%nat) by now rewrite map_length.
  assert (WC : well_conditioned (map ray_real rays)) by (apply (spread_well lam); [lra|exact SP]).
  pose proof (minimizer_normal _ x LEN ND WC MIN) as NE. clear MIN.
  pose proof (spread_le lam _ ND SP) as LN. rewrite map_length in LN.
  pose proof (fun r Hr => ray_terms prec emax Hp He fsin fcos P11 E E0 E2 (C := C) M r M_le Hr) as RT.
  destruct (sum_S t_xx t_xx) as (sxx & Exx & Fxx & Dxx & Bxx); [intros r Hr; apply RT; exact Hr|].
  destruct (sum_S t_yy t_yy) as (syy & Eyy & Fyy & Dyy & Byy); [intros r Hr; apply RT; exact Hr|].
  destruct (sum_S t_zz t_zz) as (szz & Ezz & Fzz & Dzz & Bzz); [intros r Hr; apply RT; exact Hr|].
  destruct (sum_S t_xy t_xy) as (sxy & Exy & Fxy & Dxy & Bxy); [intros r Hr; apply RT; exact Hr|].
  destruct (sum_S t_xz t_xz) as (sxz & Exz & Fxz & Dxz & Bxz); [intros r Hr; apply RT; exact Hr|].
  destruct (sum_S t_yz t_yz) as (syz & Eyz & Fyz & Dyz & Byz); [intros r Hr; apply RT; exact Hr|].
  destruct (sum_C t_cx t_cx) as (scx & Ecx & Fcx & Dcx & Bcx); [intros r Hr; apply RT; exact Hr|].
  destruct (sum_C t_cy t_cy) as (scy & Ecy & Fcy & Dcy & Bcy); [intros r Hr; apply RT; exact Hr|].
  destruct (sum_C t_cz t_cz) as (scz & Ecz & Fcz & Dcz & Bcz); [intros r Hr; apply RT; exact Hr|].
  fold delta in Dxx, Dyy, Dzz, Dxy, Dxz, Dyz.
  unfold best in *. rewrite isect_unfold in * by exact L2.
  rewrite Exx, Eyy, Ezz, Exy, Exz, Eyz, Ecx, Ecy, Ecz in *. cbn [bind] in *.
  set (S := mkM33 sxx sxy sxz sxy syy syz sxz syz szz) in *.
  unfold my_pinv in *.
  destruct (svd S true true lit_1em7 100%nat) as [d|] eqn:Es; [|exfalso; apply NF; reflexivity].
  assert (SZD : mat_sized (2 * n) S).
  { assert (Q : forall (y : f64) a, is_finite y = true -> Rabs (B2R y - a) <= n * delta -> Rabs a <= n -> sized 0 (2 * n) y).
    { intros y a Fy Dy Sy. split; [exact Fy|]. split; [apply Rabs_pos|]. replace (B2R y) with ((B2R y - a) + a) by ring.
      eapply Rle_trans; [apply tri; eassumption|]. nra. }
    unfold mat_sized, S. cbn [m00 m01 m02 m10 m11 m12 m20 m21 m22]. repeat split; eapply Q; eassumption. }
  destruct (HS S _ _ d SZD Es) as (fu & fvt & U & Vt & Eu & Ev & OU & OV & NU & NV & FS & P1 & P2 & P3 & DD).
  assert (MC : mclose (n * delta) (mreal S) (Smat (map ray_real rays))).
  { unfold mclose, mreal, S, Smat. cbn [m00 m01 m02 m10 m11 m12 m20 m21 m22]. repeat split; assumption. }
  assert (DA : forall w, vdist (mv (mm (mm U (mdiag (vreal (svd_s d)))) Vt) w) (mv (Smat (map ray_real rays)) w) <= eta' * vlen w).
  { intros w. set (a := mv (mm (mm U (mdiag (vreal (svd_s d)))) Vt) w) in *. 
    specialize (DD w). fold a in DD. assert (nd : 0 <= n * delta) by (apply Rmult_le_pos; lra). pose proof (mclose_mv _ _ _ w nd MC) as MD.
    unfold vdist in *. replace (vsub a (mv (Smat (map ray_real rays)) w)) with
      (vadd (vsub a (mv (mreal S) w)) (vsub (mv (mreal S) w) (mv (Smat (map ray_real rays)) w))) by (generalize (mv (mreal S) w) (mv (Smat (map ray_real rays)) w); intros; clearbody a; vring).
    eapply Rle_trans; [apply vlen_triangle|]. unfold eta'. lra. }
  destruct (perturb (map ray_real rays) U (vreal (svd_s d)) Vt eta' lam x E'0 ND OU OV P1 P2 P3 DA G SP NE) as ((S1 & S2 & S3) & PB).
  set (sigma := lam - eta') in *. cbn [vreal vx vy vz] in S1, S2, S3.
  assert (SG : cutoff < sigma <= 2 ^ 50).
  { unfold sigma. split; [lra|]. assert (2 ^ 40 <= 2 ^ 50) by (simpl; lra). lra. }
  assert (Edd : d = mkSVD (Some fu) (svd_s d) (Some fvt)) by (destruct d; cbn in *; congruence).
  destruct (pinv_app gsin gcos kappa sigma fu fvt U Vt (svd_s d) K OU OV NU NV FS SG S1 S2 S3) as (P & EP & AP).
  rewrite <- Edd in EP. rewrite EP in *. cbn [bind] in *.
  set (c := mkV3 (from64 scx) (from64 scy) (from64 scz)) in *.
  eexists. split; [reflexivity|].
  assert (I1 : 0 < / sigma) by (apply Rinv_0_lt_compat; lra).
  assert (In : / n <= / sigma) by (apply Rinv_le_contravar; unfold sigma; lra).
  assert (I24 : / sigma <= 2 ^ 24) by (apply (isig sigma SG)).
  pose proof n_le as NLE. pose proof bigE as BE. pose proof M1 as M1'. pose proof NM as NM'.
  assert (nM : 2 <= n * M) by nra.
  assert (T1 : tiny <= 3 * / sigma).
  { apply Rle_trans with (bpow radix2 (- E)); [apply bpow_le; lia|]. apply Rle_trans with (/ n); [|lra].
    rewrite bpow_opp. apply Rinv_le_contravar; lra. }
  assert (BG : 10 * / sigma < big).
  { assert (10 * 2 ^ 24 < 2 ^ 33) by (simpl; lra). pose proof (bpow_le radix2 0 E E0) as B0. simpl (bpow radix2 0) in B0. lra. }
  set (W := 3 * / sigma * (3.01 * (n * M))).
  assert (TW : tiny <= W).
  { apply Rle_trans with 1; [apply (bpow_le radix2 _ 0); lia|]. unfold W.
    apply Rle_trans with (3 * / n * (3.01 * (n * M))); [|apply Rmult_le_compat_r; lra].
    replace (3 * / n * (3.01 * (n * M))) with (3 * 3.01 * (/ n * n) * M) by ring. rewrite Rinv_l by lra. lra. }
  assert (BW : 12 * W < big).
  { unfold W. assert (Q : 12 * (3 * 2 ^ 24 * (3.01 * bpow radix2 E)) < big).
    { assert (109 * 2 ^ 24 < 2 ^ 33) by (simpl; lra). pose proof (bpow_gt_0 radix2 E). lra. }
    eapply Rle_lt_trans; [|exact Q]. apply Rmult_le_compat_l; [lra|]. apply Rmult_le_compat; lra. }
  destruct AP as (A00 & A01 & A02 & A10 & A11 & A12 & A20 & A21 & A22).
  pose proof (fun y a => entry_T kappa sigma y a K T1 BG) as ET.
  pose proof (ET _ _ A00) as Q00. pose proof (ET _ _ A01) as Q01. pose proof (ET _ _ A02) as Q02.
  pose proof (ET _ _ A10) as Q10. pose proof (ET _ _ A11) as Q11. pose proof (ET _ _ A12) as Q12.
  pose proof (ET _ _ A20) as Q20. pose proof (ET _ _ A21) as Q21. pose proof (ET _ _ A22) as Q22.
  pose proof (mulv_row kappa sigma _ _ _ _ _ _ _ _ _ _ K Q00 Q01 Q02 Fcx Fcy Fcz Bcx Bcy Bcz TW BW) as (R0 & V0).
  pose proof (mulv_row kappa sigma _ _ _ _ _ _ _ _ _ _ K Q10 Q11 Q12 Fcx Fcy Fcz Bcx Bcy Bcz TW BW) as (R1 & V1).
  pose proof (mulv_row kappa sigma _ _ _ _ _ _ _ _ _ _ K Q20 Q21 Q22 Fcx Fcy Fcz Bcx Bcy Bcz TW BW) as (R2 & V2).
  split; [now repeat split|].
  set (z := m33_mulv _ _) in *.
  set (e1 := (2.22 * kappa + 10) * u * (3 * W)) in *. 
  fold W in V0, V1, V2. fold e1 in V0, V1, V2.
  assert (W0 : 0 < W) by (pose proof (bpow_gt_0 radix2 (2 - emax)); lra).
  assert (e10 : 0 <= e1) by (unfold e1; apply Rmult_le_pos; [apply Rmult_le_pos|]; lra).
  assert (L1 : vlen (vsub (vreal z) (mv (pinv_of U (vreal (svd_s d)) Vt) (vreal c))) <= 1.75 * e1).
  { apply vlen_bound; [exact e10|..]; clear - V0 V1 V2; [exact V0|exact V1|exact V2]. }
  set (e2 := 3 * (n * M) * (29.3 * u + (n + 1) * v)) in *.
  assert (e20 : 0 <= e2) by (unfold e2; assert (0 <= (n + 1) * v) by (apply Rmult_le_pos; lra); apply Rmult_le_pos; lra).
  assert (L3 : vdist (vreal c) (Cvec (map ray_real rays)) <= 1.75 * e2).
  { unfold vdist. apply vlen_bound; [exact e20|exact Dcx|exact Dcy|exact Dcz]. }
  specialize (PB (vreal c)).
  unfold vdist in *. set (y := mv (pinv_of U (vreal (svd_s d)) Vt) (vreal c)) in *.
  replace (vsub (vreal z) x) with (vadd (vsub (vreal z) y) (vsub y x)) by (clearbody y z; generalize (vreal z); intros; vring).
  eapply Rle_trans; [apply vlen_triangle|]. eapply Rle_trans; [apply Rplus_le_compat; [exact L1|exact PB]|].
  assert (XX : 1.75 * e1 = (1.75 * ((2.22 * kappa + 10) * u * (3 * (3 * (3.01 * (n * M)))))) / sigma) by (unfold e1, W; field; lra).
  rewrite XX. unfold Rdiv. rewrite <- Rmult_plus_distr_r. apply Rmult_le_compat_r; [lra|].
  unfold e2 in L3. generalize (vlen (vsub (vreal c) (Cvec (map ray_real rays)))) L3. intros t Lt.
  rewrite (Rmult_assoc 6). apply final_num; [lra| | lra | lra | | exact Lt].
  - apply Rmult_le_pos; [exact E'0|apply sqrt_pos].
  - apply Rmult_le_pos; lra.
Qed.
End Rays.
End Main.
