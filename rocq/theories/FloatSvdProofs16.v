(** * FloatSvdProofs16.v - triangulation from pixels with the rounded singular value decomposition (C112) *)

From Coq Require Import ZArith Reals List Bool Lra Lia Psatz.
From Flocq Require Import Core BinarySingleNaN.
From Verif Require Import Scalar SymEigen Linalg Bundles Extrinsics Perspective Orthographic Camera RayIntersection Rows Spec SpecGeom SpecIsect SpecTri SpecFloatErr SpecFloatIsect SpecFloatTri RealBase VecLemmas ExtrinsicsProofs IsectProofs SpectralProofs TriProofs FloatBase FloatRound FloatErrProofs FloatErrProofs2 FloatApprox FloatRigidProofs FloatProjProofs FloatDirProofs FloatIsectProofs4 FloatIsectProofs5 FloatViewProofs FloatWorldProofs FloatTriProofs FloatIsectProofs5 FloatErrProofs2 FloatTriProofs2 FloatTriProofs3 FloatSvdProofs15.
Import ListNotations.
Local Open Scope R_scope.

Section C112.
Variables (prec emax : Z) (Hp : Prec_gt_0 prec) (He : Prec_lt_emax prec emax).
Variables fsin fcos : binary_float prec emax -> binary_float prec emax.
Variables gsin gcos : f64 -> f64.
Local Notation F := (binary_float prec emax).
Local Hint Extern 0 (Ops (binary_float prec emax)) =>
  exact (B_ops prec emax Hp He fsin fcos) : typeclass_instances.
Local Hint Extern 0 (Ops (binary_float 53 1024)) => exact (f64_ops gsin gcos) : typeclass_instances.
Local Notation u := (bpow radix2 (- prec)).
Local Notation v := (bpow radix2 (- (53))).
Local Notation big := (bpow radix2 emax).

Lemma C112_lemma (E : Z) to64 from64 w M P f Z eps X (rays : list (Ray WorldFrame F)) truth om lam :
  (24 <= prec <= 53)%Z -> (emax <= 1024)%Z -> (0 <= E)%Z -> (2 * E + 34 <= emax)%Z ->
  exact_to64 to64 -> rounds_from64 from64 -> u <= w <= / 2048 ->
  1 <= M -> 1 <= P -> 512 * P * M < big -> 0 < f -> 5 * P <= M * f -> 1 <= Z -> 0 <= eps ->
  let n := INR (length rays) in
  n * (4 * M) <= bpow radix2 E -> n <= 2 ^ 36 -> (2 <= length rays)%nat ->
  Forall2 (fun r t => seen_persp w M P f Z eps X r t \/ seen_ortho w M P f Z eps X r t) rays truth -> spread lam truth ->
  u <= om -> om <= / 16000000 -> 1 / 10 ^ 11 <= om ->
  let s := 3.5 * ((eps + 13.2 * w * P) / f) + 530 * w * M in
  let mu := lam - 2 * s * n in
  let eta := 3 / 10 ^ 6 * (n / mu) * n + 3 * n * (25 * u + (n + 1) * v) in
  0 < mu -> n <= 250 * mu -> eta < mu ->
  let best := best_intersection_of_rays to64 from64 svd3_try_new rays in
  best <> Some (Err SvdFailed) ->
  let e := (2600 * w * M + Z * s) * sqrt (n / mu) in
  exists x', best = Some (Ok (mkPoints [x'])) /\ vec_finite x' /\
    vdist (vreal x') X <= e + (eta * (vlen X + e) + n * (4 * M) * (810 * om + 6 * (n + 1) * v)) / (mu - eta).
Proof.
  intros P24 E1024 E0 E2 TX FR (UW & W11) M1 P1 PB F0 FM Z1 EP n NM N36 L2 SEEN SP UO O1 O2 s mu eta MU NMU G best NF e.
  assert (U0 : 0 < u) by apply bpow_gt_0. assert (V0 : 0 < v) by apply bpow_gt_0.
  assert (N2 : 2 <= n) by (apply (le_INR 2); exact L2). pose proof cutoff_pos as CP. pose proof cutoff_lt as CL.
  assert (If : 0 < / f) by now apply Rinv_0_lt_compat.
  assert (S0 : 0 <= s).
  { unfold s. apply Rplus_le_le_0_compat.
    - apply Rmult_le_pos; [lra|]. apply Rmult_le_pos; [|lra]. apply Rplus_le_le_0_compat; [exact EP|]. apply Rmult_le_pos; [|lra]. lra.
    - apply Rmult_le_pos; [lra|lra]. }
  assert (E'0 : 0 <= eta).
  { unfold eta. apply Rplus_le_le_0_compat.
    - apply Rmult_le_pos; [|lra]. apply Rmult_le_pos; [lra|]. apply Rmult_le_pos; [lra|left; now apply Rinv_0_lt_compat].
    - apply Rmult_le_pos; [lra|]. apply Rplus_le_le_0_compat; [lra|]. apply Rmult_le_pos; lra. }
  assert (LT : lam <= n).
  { unfold n. replace (length rays) with (length truth) by (clear -SEEN; induction SEEN; cbn; congruence). now apply spread_le'. }
  assert (S2 : s < 1 / 2).
  { apply Rmult_lt_reg_r with (2 * n); [lra|]. replace (s * (2 * n)) with (2 * s * n) by ring. unfold mu in MU. lra. }
  assert (Facts : Forall2 (fun r t => ray_sized E (4 * M) r /\ vreal (ray_direction r) <> vO /\
      (exists z, vdist X (vadd (vreal (ray_center r)) (vscl z (vreal (ray_direction r)))) <= 2600 * w * M + Z * s) /\
      ray_direction t <> vO /\ exists z, vdist (vscl z (vreal (ray_direction r))) (ray_direction t) <= s * vlen (ray_direction t)) rays truth).
  { assert (B1 : bpow radix2 1 <= bpow radix2 E).
    { change (bpow radix2 1) with 2. eapply Rle_trans; [|exact NM]. nra. }
    assert (B2 : bpow radix2 (- E) <= 1 / 2).
    { rewrite bpow_opp. replace (1 / 2) with (/ bpow radix2 1) by (simpl; lra). apply Rinv_le_contravar; [apply bpow_gt_0|exact B1]. }
    eapply Forall2_impl'; [|exact SEEN]. intros r t Hs.
    destruct (seen_facts prec emax Hp He fsin fcos w UW W11 ltac:(lia) M P f Z eps X r t M1 P1 PB F0 FM Z1 EP S2 Hs) as (A1 & A2 & A3 & A4 & A5 & A6).
    split; [|split; [|split; [|split]]]; try assumption.
    - split; [exact A1|]. split; [exact A2|]. split; [lra|]. apply Rle_trans with (2.1 * M); [apply A3|]. nra.
    - intros Q. rewrite Q, vlen_O in A3. lra. }
  assert (RS : Forall (ray_sized E (4 * M)) rays).
  { clear -Facts. induction Facts as [|r t l l' H _ IH]; constructor; [apply H|exact IH]. }
  set (rr := map ray_real rays).
  assert (ND : nonzero_dirs rr).
  { unfold nonzero_dirs, rr. rewrite Forall_map. clear -Facts. induction Facts as [|r t l l' H _ IH]; constructor; [apply H|exact IH]. }
  assert (SPR : spread mu rr).
  { replace mu with (lam - 2 * s * INR (length rr)) by (unfold rr; rewrite map_length; reflexivity).
    apply tilt_spread with truth; [lra| |exact SP]. unfold rr. clear -Facts. induction Facts as [|r t l l' H _ IH]; constructor; [|exact IH].
    cbn [ray_real ray_direction]. split; [apply H|]. split; apply H. }
  assert (LR : length rr = length rays) by (unfold rr; apply map_length).
  destruct (passing_point rr X mu (2600 * w * M + Z * s)) as (x & MIN & DX).
  - now rewrite LR.
  - exact ND.
  - lra.
  - exact SPR.
  - apply Rplus_le_le_0_compat; [apply Rmult_le_pos; lra|apply Rmult_le_pos; lra].
  - unfold rr. rewrite Forall_map. clear -Facts. induction Facts as [|r t l l' H _ IH]; constructor; [|exact IH]. cbn [ray_real ray_direction ray_center]. apply H.
  - rewrite LR in DX. fold n e in DX.
    destruct (C111_lemma prec emax Hp He fsin fcos gsin gcos P24 E1024 E E0 E2 to64 from64 TX FR om UO O1 O2 (4 * M) rays mu x ltac:(lra) NM N36 L2 RS NMU SPR MIN NF) as (x' & Q & FX & D).
    fold n eta in D. exists x'. split; [exact Q|]. split; [exact FX|].
    eapply Rle_trans; [apply vdist_triangle with (b := x)|].
    assert (LX : vlen x <= vlen X + e) by (pose proof (vdist_len x X); lra).
    assert (D' : vdist (vreal x') x <= (eta * (vlen X + e) + n * (4 * M) * (810 * om + 6 * (n + 1) * v)) / (mu - eta)).
    { eapply Rle_trans; [exact D|]. apply Rmult_le_compat_r; [left; apply Rinv_0_lt_compat; lra|]. apply Rplus_le_compat_r.
      apply Rmult_le_compat_l; [exact E'0|exact LX]. }
    lra.
Qed.
End C112.

Section F64.
Variables fsin fcos : f64 -> f64.
Local Hint Extern 0 (Ops f64) => exact (f64_ops fsin fcos) : typeclass_instances.
Local Hint Extern 0 (Ops (binary_float 53 1024)) => exact (f64_ops fsin fcos) : typeclass_instances.
Local Notation u := (bpow radix2 (- (53))).


Lemma sqrt_num50 n mu : 0 < mu -> n <= 56 * mu -> sqrt (n / mu) <= 7.5.
Proof.
  intros M N. replace 7.5 with (sqrt (7.5 * 7.5)) by (apply sqrt_square; lra). apply sqrt_le_1_alt.
  apply Rmult_le_reg_r with mu; [lra|]. unfold Rdiv. rewrite Rmult_assoc, Rinv_l by lra. lra.
Qed.

Lemma C112b_lemma Z eps X (rays : list (Ray WorldFrame f64)) truth lam :
  let n := INR (length rays) in
  1 <= Z -> 0 <= eps <= 1 / 10 -> (2 <= length rays)%nat -> n <= 1000 ->
  Forall2 (fun r t => seen_persp u 100 10000 500 Z eps X r t \/ seen_ortho u 100 10000 500 Z eps X r t) rays truth ->
  n <= 50 * lam -> spread lam truth ->
  let best := best_intersection_of_rays (fun x : f64 => Some x) (fun x : f64 => x) svd3_try_new rays in
  best <> Some (Err SvdFailed) ->
  exists x', best = Some (Ok (mkPoints [x'])) /\ vec_finite x' /\
    vdist (vreal x') X <= 6 / 100 * Z * eps + 1 / 10 ^ 8 * Z + 4 / 10 ^ 6 * (n / lam) + 4 / 10 ^ 6 * (n / lam) ^ 2 * vlen X.
Proof.
  intros n Z1 EP L2 N3 SEEN NL SP best NF. pose proof u_f64 as U. assert (U0 : 0 < u) by apply bpow_gt_0.
  assert (N2 : 2 <= n) by (apply (le_INR 2); exact L2). assert (L0 : 0 < lam) by lra.
  assert (LT : lam <= n).
  { unfold n. replace (length rays) with (length truth) by (clear -SEEN; induction SEEN; cbn; congruence). now apply spread_le'. }
  set (s := 3.5 * ((eps + 13.2 * u * 10000) / 500) + 530 * u * 100).
  assert (S1 : 0 < s) by (unfold s; lra).
  assert (S2 : s <= 7 / 1000 * eps + 2 / 10 ^ 11) by (unfold s; lra).
  set (mu := lam - 2 * s * n).
  assert (SN : 2 * s * n <= 7.1 / 100 * lam).
  { apply Rle_trans with (2 * (7.1 / 10000) * (50 * lam)); [|lra]. apply Rmult_le_compat; lra. }
  assert (MU : 92.9 / 100 * lam <= mu <= lam) by (unfold mu; assert (0 < s * n) by (apply Rmult_lt_0_compat; lra); lra).
  assert (NMU : n <= 54 * mu) by lra.
  assert (BB : 512 * 10000 * 100 < bpow radix2 1024) by (apply big_f64; lra).
  set (q := n / mu). set (p := n / lam).
  assert (P1 : 1 <= p <= 50) by (unfold p; split; apply (Rmult_le_reg_r lam); try lra; unfold Rdiv; rewrite Rmult_assoc, Rinv_l by lra; lra).
  assert (PN : n = p * lam) by (unfold p; field; lra). assert (QN : n = q * mu) by (unfold q; field; lra).
  assert (QP : p <= q <= 1.077 * p).
  { split; apply (Rmult_le_reg_r mu); try lra; rewrite <- QN.
    - rewrite PN. apply Rmult_le_compat_l; lra.
    - apply Rle_trans with (1.077 * p * (92.9 / 100 * lam)); [|apply Rmult_le_compat_l; lra]. replace (1.077 * p * (92.9 / 100 * lam)) with (1.077 * (92.9 / 100) * n) by (rewrite PN; ring). lra. }
  assert (PP : 1 <= p * p <= 2500) by (split; [replace 1 with (1 * 1) by ring|replace 2500 with (50 * 50) by ring]; apply Rmult_le_compat; lra).
  assert (QQ : q * q <= 1.16 * (p * p)) by (apply Rle_trans with (1.077 * p * (1.077 * p)); [apply Rmult_le_compat; lra|lra]).
  assert (Q1 : 0 <= q) by lra. assert (PQ : p <= p * p) by (rewrite <- (Rmult_1_r p) at 1; apply Rmult_le_compat_l; lra).
  set (w0 := 25 * u + (n + 1) * u).
  assert (W0 : 0 < w0 <= 1.2 / 10 ^ 13).
  { unfold w0. assert ((n + 1) * u <= 1001 * u) by (apply Rmult_le_compat_r; lra). assert (0 < (n + 1) * u) by (apply Rmult_lt_0_compat; lra). lra. }
  set (eta := 3 / 10 ^ 6 * q * n + 3 * n * w0).
  assert (ET : 0 <= eta <= 3.5 / 10 ^ 6 * (p * p) * mu).
  { unfold eta. replace (3 / 10 ^ 6 * q * n + 3 * n * w0) with ((3 / 10 ^ 6 * (q * q) + 3 * (q * w0)) * mu) by (rewrite QN; ring).
    assert (q * w0 <= 1.077 * p * (1.2 / 10 ^ 13)) by (apply Rmult_le_compat; lra). assert (0 <= q * w0) by (apply Rmult_le_pos; lra). assert (0 <= q * q) by (apply Rmult_le_pos; lra). split.
    - apply Rmult_le_pos; lra.
    - apply Rmult_le_compat_r; lra. }
  assert (ET2 : eta <= 9 / 1000 * mu).
  { eapply Rle_trans; [apply ET|]. apply Rmult_le_compat_r; lra. }
  destruct (C112_lemma 53 1024 f64_prec f64_emax fsin fcos fsin fcos 40 (fun x : f64 => Some x) (fun x : f64 => x) u 100 10000 500 Z eps X rays truth (1 / 10 ^ 11) lam)
    as (x' & Q & FX & D); try assumption; try lra; try lia.
  - exact id_exact.
  - exact id_rounds.
  - change (n * (4 * 100) <= bpow radix2 40). replace (bpow radix2 40) with 1099511627776 by (simpl; lra). lra.
  - change (n <= 2 ^ 36). simpl. lra.
  - change (0 < mu). lra.
  - change (n <= 250 * mu). lra.
  - change (eta < mu). lra.
  - exists x'. split; [exact Q|]. split; [exact FX|]. eapply Rle_trans; [exact D|]. change (INR (@length (Ray WorldFrame (binary_float 53 1024)) rays)) with n.
    change (3.5 * ((eps + 13.2 * u * 10000) / 500) + 530 * u * 100) with s. change (lam - 2 * s * n) with mu. change (n / mu) with q.
    change (3 / 10 ^ 6 * q * n + 3 * n * (25 * u + (n + 1) * u)) with eta.
    assert (SQ : sqrt q <= 7.5) by (apply sqrt_num50; lra). pose proof (sqrt_pos q) as SQ0. set (sq := sqrt q) in *. clearbody sq.
    assert (X0 : 0 <= vlen X) by apply sqrt_pos.
    pose proof (Rmult_le_pos Z eps ltac:(lra) ltac:(lra)) as ZE.
    assert (T0 : 0 <= 2600 * u * 100 + Z * s) by (apply Rplus_le_le_0_compat; [lra|]; apply Rmult_le_pos; lra).
    assert (ZS : Z * s <= 7 / 1000 * (Z * eps) + 2 / 10 ^ 11 * Z).
    { replace (7 / 1000 * (Z * eps) + 2 / 10 ^ 11 * Z) with (Z * (7 / 1000 * eps + 2 / 10 ^ 11)) by ring. apply Rmult_le_compat_l; lra. }
    assert (E1 : (2600 * u * 100 + Z * s) * sq <= (4 / 10 ^ 11 + (7 / 1000 * (Z * eps) + 2 / 10 ^ 11 * Z)) * 7.5) by (apply Rmult_le_compat; lra).
    assert (E0 : 0 <= (2600 * u * 100 + Z * s) * sq) by now apply Rmult_le_pos.
    set (e := (2600 * u * 100 + Z * s) * sq) in *. clearbody e.
    set (dd := 810 * (1 / 10 ^ 11) + 6 * (n + 1) * u).
    assert (D8 : 0 <= dd <= 8.2 / 10 ^ 9).
    { unfold dd. assert ((n + 1) * u <= 1001 * u) by (apply Rmult_le_compat_r; lra). assert (0 < (n + 1) * u) by (apply Rmult_lt_0_compat; lra). lra. }
    assert (H1 : (eta * (vlen X + e) + n * (4 * 100) * dd) / (mu - eta) <= (3.5 / 10 ^ 6 * (p * p) * (vlen X + e) + 1.077 * p * (4 * 100) * (8.2 / 10 ^ 9)) * 1.01).
    { apply (Rmult_le_reg_r (mu - eta)); [lra|]. unfold Rdiv at 1. rewrite Rmult_assoc, Rinv_l, Rmult_1_r by lra.
      set (b := 3.5 / 10 ^ 6 * (p * p) * (vlen X + e) + 1.077 * p * (4 * 100) * (8.2 / 10 ^ 9)).
      assert (B0 : 0 <= b) by (unfold b; apply Rplus_le_le_0_compat; [apply Rmult_le_pos; lra|lra]).
      apply Rle_trans with (b * mu); [|replace (b * 1.01 * (mu - eta)) with (b * (1.01 * (mu - eta))) by ring; apply Rmult_le_compat_l; lra].
      unfold b. replace ((3.5 / 10 ^ 6 * (p * p) * (vlen X + e) + 1.077 * p * (4 * 100) * (8.2 / 10 ^ 9)) * mu) with
        (3.5 / 10 ^ 6 * (p * p) * mu * (vlen X + e) + 1.077 * p * mu * (4 * 100) * (8.2 / 10 ^ 9)) by ring.
      apply Rplus_le_compat; [apply Rmult_le_compat_r; lra|]. apply Rmult_le_compat; [lra|lra| |lra]. apply Rmult_le_compat_r; [lra|]. rewrite QN. apply Rmult_le_compat_r; lra. }
    assert (H2 : 3.5 / 10 ^ 6 * (p * p) * e <= 1 / 100 * e) by (apply Rmult_le_compat_r; lra).
    assert (H3 : 0 <= p * p * vlen X) by (apply Rmult_le_pos; lra).
    replace (4 / 10 ^ 6 * p ^ 2 * vlen X) with (4 / 10 ^ 6 * (p * p * vlen X)) by ring.
    eapply Rle_trans; [apply Rplus_le_compat_l, H1|].
    replace (3.5 / 10 ^ 6 * (p * p) * (vlen X + e)) with (3.5 / 10 ^ 6 * (p * p * vlen X) + 3.5 / 10 ^ 6 * (p * p) * e) by ring. lra.
Qed.

(** ** The program's own pixels *)
Local Notation cam a := (camera_new (perspective_from (fc_k a)) (from_rotation_and_camcenter (fc_qh a) (fc_c a))).
Lemma C112c_lemma X (cams : list (fcam 53 1024)) lam : (2 <= length cams)%nat -> INR (length cams) <= 1000 -> vec_sized 100 X ->
  Forall (good_cam X) cams -> INR (length cams) <= 50 * lam ->
  spread lam (map (fun a => mkRay (Coords := WorldFrame) (vreal (fc_c a)) (vsub (vreal X) (vreal (fc_c a)))) cams) ->
  exists rays,
    Forall2 (fun a r => (p <- world_to_pixel (cam a) (mkPoints [X]) ;; rb <- pixel_to_world (cam a) p ;;
                         @to_single_ray f64 _ _ SharedOrigin_Bundle rb) = Some r) cams rays /\
    (best_intersection_of_rays (fun x : f64 => Some x) (fun x : f64 => x) svd3_try_new rays <> Some (Err SvdFailed) ->
    exists x', best_intersection_of_rays (fun x : f64 => Some x) (fun x : f64 => x) svd3_try_new rays = Some (Ok (mkPoints [x'])) /\ vec_finite x' /\
      vdist (vreal x') (vreal X) <= 1 / 10 ^ 5 + 4 / 10 ^ 6 * (INR (length cams) / lam) + 4 / 10 ^ 6 * (INR (length cams) / lam) ^ 2 * vlen (vreal X)).
Proof.
  intros L N3 SX G LL SP.
  assert (R : exists rays, Forall2 (fun a r => (p <- world_to_pixel (cam a) (mkPoints [X]) ;; rb <- pixel_to_world (cam a) p ;;
                         @to_single_ray f64 _ _ SharedOrigin_Bundle rb) = Some r) cams rays /\
     Forall2 (fun r t => seen_persp u 100 10000 500 350 (2.9 / 10 ^ 7) (vreal X) r t) rays
       (map (fun a => mkRay (Coords := WorldFrame) (vreal (fc_c a)) (vsub (vreal X) (vreal (fc_c a)))) cams) /\ length rays = length cams).
  { clear L N3 LL SP. induction G as [|a l H _ (rays & A & B & D)]; [exists []; repeat constructor|].
    destruct (own_pixel fsin fcos X a SX H) as (r & E & S). exists (r :: rays). split; [constructor; assumption|]. split; [cbn [map]; constructor; assumption|].
    cbn [length]. now rewrite D. }
  destruct R as (rays & A & B & D). exists rays. split; [exact A|]. intros NF.
  destruct (C112b_lemma 350 (2.9 / 10 ^ 7) (vreal X) rays
    (map (fun a => mkRay (Coords := WorldFrame) (vreal (fc_c a)) (vsub (vreal X) (vreal (fc_c a)))) cams) lam) as (x' & Q & FX & E); try assumption; try lra.
  - now rewrite D.
  - now rewrite D.
  - eapply Forall2_impl'; [|exact B]. intros r t H. now left.
  - now rewrite D.
  - exists x'. split; [exact Q|]. split; [exact FX|]. eapply Rle_trans; [exact E|]. rewrite D. lra.
Qed.
End F64.
