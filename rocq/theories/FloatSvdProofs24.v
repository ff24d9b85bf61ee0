(** * FloatSvdProofs24.v - intersection of rays and triangulation with the rounded decomposition, without a condition on its success (C114, C115) *)

From Coq Require Import ZArith Reals List Bool Lra Lia Psatz.
From Flocq Require Import Core BinarySingleNaN.
From Verif Require Import Scalar SymEigen Linalg Bundles Extrinsics Perspective Orthographic Camera RayIntersection Rows Convert Spec SpecGeom SpecIsect SpecTri SpecFloatErr SpecFloatIsect SpecFloatTri SpecSvd SpecFloatSvd SpecFloatSvd2 RealBase VecLemmas ExtrinsicsProofs IsectBase IsectProofs SpectralProofs TriProofs SymEigenProofs6 FloatBase FloatRound FloatErrProofs FloatErrProofs2 FloatApprox FloatRigidProofs FloatProjProofs FloatDirProofs FloatIsectProofs FloatIsectProofs2 FloatIsectProofs3 FloatIsectProofs4 FloatIsectProofs5 FloatViewProofs FloatWorldProofs FloatTriProofs FloatTriProofs2 FloatTriProofs3 FloatSvdProofs14 FloatSvdProofs15 FloatSvdProofs16 FloatSvdProofs22 FloatSvdProofs23.
Import ListNotations.
Local Open Scope R_scope.

Section F64.
Variables fsin fcos : f64 -> f64.
Variables hsin hcos : f32 -> f32.
Local Hint Extern 0 (Ops f64) => exact (f64_ops fsin fcos) : typeclass_instances.
Local Hint Extern 0 (Ops f32) => exact (f32_ops hsin hcos) : typeclass_instances.
Local Hint Extern 0 (Ops (binary_float 53 1024)) => exact (f64_ops fsin fcos) : typeclass_instances.
Local Notation u := (bpow radix2 (- (53))).

Lemma C114c_lemma {C} M (rays : list (Ray C f64)) lam :
  let n := INR (length rays) in
  (2 <= length rays)%nat -> n <= 1000000 -> 1 <= M <= 10 ^ 9 ->
  Forall (fun r => vec_sized M (ray_center r) /\ vec_finite (ray_direction r) /\ 1 / 10 ^ 9 <= vlen (vreal (ray_direction r)) <= 10 ^ 9) rays ->
  n <= 250 * lam -> spread lam (map ray_real rays) ->
  best_intersection_of_rays (fun x : f64 => Some x) (fun x : f64 => x) svd3_try_new rays <> Some (Err SvdFailed).
Proof.
  intros n L2 N6 M1 RS NL SP.
  assert (N2 : 2 <= n) by (apply (le_INR 2); exact L2). assert (L0 : 0 < lam) by lra.
  assert (b60 : bpow radix2 60 = 1152921504606846976) by (simpl; lra).
  assert (B60 : bpow radix2 (- (60)) <= 1 / 10 ^ 9) by (rewrite bpow_opp, b60; lra).
  assert (RS' : Forall (ray_sized 60 M) rays).
  { eapply Forall_impl; [|exact RS]. intros r (H1 & H2 & H3). split; [exact H1|]. split; [exact H2|]. split; [lra|]. rewrite b60. lra. }
  assert (NM : n * M <= bpow radix2 60) by (rewrite b60; apply Rle_trans with (1000000 * 10 ^ 9); [apply Rmult_le_compat; lra|lra]).
  assert (N36 : n <= 2 ^ 36) by (simpl; lra).
  exact (C114a_lemma 53 1024 f64_prec f64_emax fsin fcos fsin fcos 60 (fun x : f64 => Some x) (fun x : f64 => x) M rays lam ltac:(lia) ltac:(lia) ltac:(lia) ltac:(lia) id_exact id_rounds ltac:(apply M1) NM N36 L2 RS' NL SP).
Qed.
Lemma C114d_lemma {C} M (rays : list (Ray C f32)) lam :
  let n := INR (length rays) in
  (2 <= length rays)%nat -> n <= 1000000 -> 1 <= M <= 10 ^ 6 ->
  Forall (fun r => vec_sized M (ray_center r) /\ vec_finite (ray_direction r) /\ 1 / 10 ^ 9 <= vlen (vreal (ray_direction r)) <= 10 ^ 9) rays ->
  n <= 250 * lam -> spread lam (map ray_real rays) ->
  best_intersection_of_rays f32_to_f64 f64_to_f32 svd3_try_new rays <> Some (Err SvdFailed).
Proof.
  intros n L2 N6 M1 RS NL SP.
  assert (N2 : 2 <= n) by (apply (le_INR 2); exact L2). assert (L0 : 0 < lam) by lra.
  assert (b40 : bpow radix2 47 = 140737488355328) by (simpl; lra).
  assert (B40 : bpow radix2 (- (47)) <= 1 / 10 ^ 9) by (rewrite bpow_opp, b40; lra).
  assert (RS' : Forall (ray_sized 47 M) rays).
  { eapply Forall_impl; [|exact RS]. intros r (H1 & H2 & H3). split; [exact H1|]. split; [exact H2|]. split; [lra|]. rewrite b40. lra. }
  assert (NM : n * M <= bpow radix2 47) by (rewrite b40; apply Rle_trans with (1000000 * 10 ^ 6); [apply Rmult_le_compat; lra|lra]).
  assert (N36 : n <= 2 ^ 36) by (simpl; lra).
  exact (C114a_lemma 24 128 f32_prec f32_emax hsin hcos fsin fcos 47 f32_to_f64 f64_to_f32 M rays lam ltac:(lia) ltac:(lia) ltac:(lia) ltac:(lia) f32_to_f64_exact f64_to_f32_rounds ltac:(apply M1) NM N36 L2 RS' NL SP).
Qed.
Lemma C114e_lemma {C} M (rays : list (Ray C f64)) lam x :
  let n := INR (length rays) in
  (2 <= length rays)%nat -> n <= 1000000 -> 1 <= M <= 10 ^ 9 ->
  Forall (fun r => vec_sized M (ray_center r) /\ vec_finite (ray_direction r) /\ 1 / 10 ^ 9 <= vlen (vreal (ray_direction r)) <= 10 ^ 9) rays ->
  n <= 100 * lam -> spread lam (map ray_real rays) ->
  (forall y, sum_sq_dist (map ray_real rays) x <= sum_sq_dist (map ray_real rays) y) ->
  let best := best_intersection_of_rays (fun x : f64 => Some x) (fun x : f64 => x) svd3_try_new rays in
  exists x', best = Some (Ok (mkPoints [x'])) /\ vec_finite x' /\
    vdist (vreal x') x <= 34 / 10 ^ 7 * (n / lam) ^ 2 * vlen x + 1 / 10 ^ 8 * (n / lam) * M.
Proof.
  intros n L2 N6 M1 RS NL SP MIN. assert (L0 : 0 < lam) by (assert (2 <= n) by (apply (le_INR 2); exact L2); lra).
  exact (C111b_lemma fsin fcos M rays lam x L2 N6 M1 RS NL SP MIN (C114c_lemma M rays lam L2 N6 M1 RS ltac:(fold n; lra) SP)).
Qed.
Lemma C114f_lemma {C} M (rays : list (Ray C f32)) lam x :
  let n := INR (length rays) in
  (2 <= length rays)%nat -> n <= 1000000 -> 1 <= M <= 10 ^ 6 ->
  Forall (fun r => vec_sized M (ray_center r) /\ vec_finite (ray_direction r) /\ 1 / 10 ^ 9 <= vlen (vreal (ray_direction r)) <= 10 ^ 9) rays ->
  n <= 100 * lam -> spread lam (map ray_real rays) ->
  (forall y, sum_sq_dist (map ray_real rays) x <= sum_sq_dist (map ray_real rays) y) ->
  let best := best_intersection_of_rays f32_to_f64 f64_to_f32 svd3_try_new rays in
  exists x', best = Some (Ok (mkPoints [x'])) /\ vec_finite x' /\
    vdist (vreal x') x <= 85 / 10 ^ 7 * (n / lam) ^ 2 * vlen x + 6 / 10 ^ 5 * (n / lam) * M.
Proof.
  intros n L2 N6 M1 RS NL SP MIN. assert (L0 : 0 < lam) by (assert (2 <= n) by (apply (le_INR 2); exact L2); lra).
  exact (C111c_lemma fsin fcos hsin hcos M rays lam x L2 N6 M1 RS NL SP MIN (C114d_lemma M rays lam L2 N6 M1 RS ltac:(fold n; lra) SP)).
Qed.

(** ** Triangulation *)
Lemma C115a_lemma Z eps X (rays : list (Ray WorldFrame f64)) truth lam :
  let n := INR (length rays) in
  1 <= Z -> 0 <= eps <= 1 / 10 -> (2 <= length rays)%nat -> n <= 1000 ->
  Forall2 (fun r t => seen_persp u 100 10000 500 Z eps X r t \/ seen_ortho u 100 10000 500 Z eps X r t) rays truth ->
  n <= 50 * lam -> spread lam truth ->
  let best := best_intersection_of_rays (fun x : f64 => Some x) (fun x : f64 => x) svd3_try_new rays in
  best <> Some (Err SvdFailed).
Proof.
  intros n Z1 EP L2 N3 SEEN NL SP best. pose proof u_f64 as U. assert (U0 : 0 < u) by apply bpow_gt_0.
  assert (N2 : 2 <= n) by (apply (le_INR 2); exact L2). assert (L0 : 0 < lam) by lra.
  assert (LT : lam <= n).
  { unfold n. replace (length rays) with (length truth) by (clear -SEEN; induction SEEN; cbn; congruence). now apply spread_le'. }
  set (s := 3.5 * ((eps + 13.2 * u * 10000) / 500) + 530 * u * 100).
  assert (S1 : 0 < s) by (unfold s; lra).
  assert (S2 : s <= 7 / 1000 * eps + 2 / 10 ^ 11) by (unfold s; lra).
  set (mu := lam - 2 * s * n).
  assert (SN : 2 * s * n <= 7.1 / 100 * lam).
  { apply Rle_trans with (2 * (7.1 / 10000) * (50 * lam)); [|lra]. apply Rmult_le_compat; lra. }
  assert (MU : 92.9 / 100 * lam <= mu <= lam) by (unfold mu; assert (0 < s * n) by (apply Rmult_lt_0_compat; lra); lra).
  assert (NMU : n <= 54 * mu) by lra.
  assert (BB : 512 * 10000 * 100 < bpow radix2 1024) by (apply big_f64; lra).
  set (q := n / mu). set (p := n / lam).
  assert (P1 : 1 <= p <= 50) by (unfold p; split; apply (Rmult_le_reg_r lam); try lra; unfold Rdiv; rewrite Rmult_assoc, Rinv_l by lra; lra).
  assert (PN : n = p * lam) by (unfold p; field; lra). assert (QN : n = q * mu) by (unfold q; field; lra).
  assert (QP : p <= q <= 1.077 * p).
  { split; apply (Rmult_le_reg_r mu); try lra; rewrite <- QN.
    - rewrite PN. apply Rmult_le_compat_l; lra.
    - apply Rle_trans with (1.077 * p * (92.9 / 100 * lam)); [|apply Rmult_le_compat_l; lra]. replace (1.077 * p * (92.9 / 100 * lam)) with (1.077 * (92.9 / 100) * n) by (rewrite PN; ring). lra. }
  assert (PP : 1 <= p * p <= 2500) by (split; [replace 1 with (1 * 1) by ring|replace 2500 with (50 * 50) by ring]; apply Rmult_le_compat; lra).
  assert (QQ : q * q <= 1.16 * (p * p)) by (apply Rle_trans with (1.077 * p * (1.077 * p)); [apply Rmult_le_compat; lra|lra]).
  assert (Q1 : 0 <= q) by lra. assert (PQ : p <= p * p) by (rewrite <- (Rmult_1_r p) at 1; apply Rmult_le_compat_l; lra).
  set (w0 := 25 * u + (n + 1) * u).
  assert (W0 : 0 < w0 <= 1.2 / 10 ^ 13).
  { unfold w0. assert ((n + 1) * u <= 1001 * u) by (apply Rmult_le_compat_r; lra). assert (0 < (n + 1) * u) by (apply Rmult_lt_0_compat; lra). lra. }
  set (eta := 3 / 10 ^ 6 * q * n + 3 * n * w0).
  assert (ET : 0 <= eta <= 3.5 / 10 ^ 6 * (p * p) * mu).
  { unfold eta. replace (3 / 10 ^ 6 * q * n + 3 * n * w0) with ((3 / 10 ^ 6 * (q * q) + 3 * (q * w0)) * mu) by (rewrite QN; ring).
    assert (q * w0 <= 1.077 * p * (1.2 / 10 ^ 13)) by (apply Rmult_le_compat; lra). assert (0 <= q * w0) by (apply Rmult_le_pos; lra). assert (0 <= q * q) by (apply Rmult_le_pos; lra). split.
    - apply Rmult_le_pos; lra.
    - apply Rmult_le_compat_r; lra. }
  assert (ET2 : eta <= 9 / 1000 * mu).
  { eapply Rle_trans; [apply ET|]. apply Rmult_le_compat_r; lra. }
  apply (C114b_lemma 53 1024 f64_prec f64_emax fsin fcos fsin fcos 40 (fun x : f64 => Some x) (fun x : f64 => x) u 100 10000 500 Z eps X rays truth (1 / 10 ^ 11) lam); try assumption; try lra; try lia.
  - exact id_exact.
  - exact id_rounds.
  - change (n * (4 * 100) <= bpow radix2 40). replace (bpow radix2 40) with 1099511627776 by (simpl; lra). lra.
  - change (n <= 2 ^ 36). simpl. lra.
  - change (0 < mu). lra.
  - change (n <= 250 * mu). lra.
  - change (eta < mu). lra.
Qed.
Lemma C115b_lemma Z eps X (rays : list (Ray WorldFrame f64)) truth lam :
  let n := INR (length rays) in
  1 <= Z -> 0 <= eps <= 1 / 10 -> (2 <= length rays)%nat -> n <= 1000 ->
  Forall2 (fun r t => seen_persp u 100 10000 500 Z eps X r t \/ seen_ortho u 100 10000 500 Z eps X r t) rays truth ->
  n <= 50 * lam -> spread lam truth ->
  let best := best_intersection_of_rays (fun x : f64 => Some x) (fun x : f64 => x) svd3_try_new rays in
  exists x', best = Some (Ok (mkPoints [x'])) /\ vec_finite x' /\
    vdist (vreal x') X <= 6 / 100 * Z * eps + 1 / 10 ^ 8 * Z + 4 / 10 ^ 6 * (n / lam) + 4 / 10 ^ 6 * (n / lam) ^ 2 * vlen X.
Proof.
  intros n Z1 EP L2 N3 SEEN NL SP. exact (C112b_lemma fsin fcos Z eps X rays truth lam Z1 EP L2 N3 SEEN NL SP (C115a_lemma Z eps X rays truth lam Z1 EP L2 N3 SEEN NL SP)).
Qed.
(** ** The program's own pixels *)
Local Notation cam a := (camera_new (perspective_from (fc_k a)) (from_rotation_and_camcenter (fc_qh a) (fc_c a))).
Lemma C115c_lemma X (cams : list (fcam 53 1024)) lam : (2 <= length cams)%nat -> INR (length cams) <= 1000 -> vec_sized 100 X ->
  Forall (good_cam X) cams -> INR (length cams) <= 50 * lam ->
  spread lam (map (fun a => mkRay (Coords := WorldFrame) (vreal (fc_c a)) (vsub (vreal X) (vreal (fc_c a)))) cams) ->
  exists rays,
    Forall2 (fun a r => (p <- world_to_pixel (cam a) (mkPoints [X]) ;; rb <- pixel_to_world (cam a) p ;;
                         @to_single_ray f64 _ _ SharedOrigin_Bundle rb) = Some r) cams rays /\
    exists x', best_intersection_of_rays (fun x : f64 => Some x) (fun x : f64 => x) svd3_try_new rays = Some (Ok (mkPoints [x'])) /\ vec_finite x' /\
      vdist (vreal x') (vreal X) <= 1 / 10 ^ 5 + 4 / 10 ^ 6 * (INR (length cams) / lam) + 4 / 10 ^ 6 * (INR (length cams) / lam) ^ 2 * vlen (vreal X).
Proof.
  intros L N3 SX G LL SP.
  assert (R : exists rays, Forall2 (fun a r => (p <- world_to_pixel (cam a) (mkPoints [X]) ;; rb <- pixel_to_world (cam a) p ;;
                         @to_single_ray f64 _ _ SharedOrigin_Bundle rb) = Some r) cams rays /\
     Forall2 (fun r t => seen_persp u 100 10000 500 350 (2.9 / 10 ^ 7) (vreal X) r t) rays
       (map (fun a => mkRay (Coords := WorldFrame) (vreal (fc_c a)) (vsub (vreal X) (vreal (fc_c a)))) cams) /\ length rays = length cams).
  { clear L N3 LL SP. induction G as [|a l H _ (rays & A & B & D)]; [exists []; repeat constructor|].
    destruct (own_pixel fsin fcos X a SX H) as (r & E & S). exists (r :: rays). split; [constructor; assumption|]. split; [cbn [map]; constructor; assumption|].
    cbn [length]. now rewrite D. }
  destruct R as (rays & A & B & D). exists rays. split; [exact A|].
  destruct (C115b_lemma 350 (2.9 / 10 ^ 7) (vreal X) rays
    (map (fun a => mkRay (Coords := WorldFrame) (vreal (fc_c a)) (vsub (vreal X) (vreal (fc_c a)))) cams) lam) as (x' & Q & FX & E); try assumption; try lra.
  - now rewrite D.
  - now rewrite D.
  - eapply Forall2_impl'; [|exact B]. intros r t H. now left.
  - now rewrite D.
  - exists x'. split; [exact Q|]. split; [exact FX|]. eapply Rle_trans; [exact E|]. rewrite D. lra.
Qed.
End F64.

(** ** Any format *)
Section IEEE.
Variables (prec emax : Z) (Hp : Prec_gt_0 prec) (He : Prec_lt_emax prec emax).
Variables fsin fcos : binary_float prec emax -> binary_float prec emax.
Variables gsin gcos : f64 -> f64.
Local Notation F := (binary_float prec emax).
Local Hint Extern 0 (Ops (binary_float prec emax)) =>
  exact (B_ops prec emax Hp He fsin fcos) : typeclass_instances.
Local Hint Extern 0 (Ops (binary_float 53 1024)) => exact (f64_ops gsin gcos) : typeclass_instances.
Local Hint Extern 0 (Ops f64) => exact (f64_ops gsin gcos) : typeclass_instances.
Local Notation u := (bpow radix2 (- prec)).
Local Notation v := (bpow radix2 (- (53))).
Local Notation big := (bpow radix2 emax).

Lemma C114_lemma {C} (E : Z) (to64 : binary_float prec emax -> option f64) (from64 : f64 -> binary_float prec emax) om (M : R) (rays : list (Ray C (binary_float prec emax))) lam x :
  (24 <= prec <= 53)%Z -> (emax <= 1024)%Z -> (0 <= E)%Z -> (2 * E + 34 <= emax)%Z ->
  exact_to64 to64 -> rounds_from64 from64 -> u <= om -> om <= / 16000000 -> 1 / 10 ^ 11 <= om ->
  let n := INR (length rays) in
  1 <= M -> n * M <= bpow radix2 E -> n <= 2 ^ 36 -> (2 <= length rays)%nat -> Forall (ray_sized E M) rays ->
  n <= 250 * lam -> spread lam (map ray_real rays) ->
  (forall y, sum_sq_dist (map ray_real rays) x <= sum_sq_dist (map ray_real rays) y) ->
  let best := best_intersection_of_rays to64 from64 svd3_try_new rays in
  let eta := 3 / 10 ^ 6 * (n / lam) * n + 3 * n * (25 * u + (n + 1) * v) in
  exists x', best = Some (Ok (mkPoints [x'])) /\ vec_finite x' /\
    vdist (vreal x') x <= (eta * vlen x + n * M * (810 * om + 6 * (n + 1) * v)) / (lam - eta).
Proof.
  intros P24 E1024 E0 E2 TX FR UW WS OM n M1 NM N36 L2 RS NL SP MIN.
  exact (C111_lemma prec emax Hp He fsin fcos gsin gcos P24 E1024 E E0 E2 to64 from64 TX FR om UW WS OM M rays lam x M1 NM N36 L2 RS NL SP MIN
    (C114a_lemma prec emax Hp He fsin fcos gsin gcos E to64 from64 M rays lam P24 E1024 E0 E2 TX FR M1 NM N36 L2 RS NL SP)).
Qed.
Lemma C115_lemma (E : Z) to64 from64 w M P f Z eps X (rays : list (Ray WorldFrame F)) truth om lam :
  (24 <= prec <= 53)%Z -> (emax <= 1024)%Z -> (0 <= E)%Z -> (2 * E + 34 <= emax)%Z ->
  exact_to64 to64 -> rounds_from64 from64 -> u <= w <= / 2048 ->
  1 <= M -> 1 <= P -> 512 * P * M < big -> 0 < f -> 5 * P <= M * f -> 1 <= Z -> 0 <= eps ->
  let n := INR (length rays) in
  n * (4 * M) <= bpow radix2 E -> n <= 2 ^ 36 -> (2 <= length rays)%nat ->
  Forall2 (fun r t => seen_persp w M P f Z eps X r t \/ seen_ortho w M P f Z eps X r t) rays truth -> spread lam truth ->
  u <= om -> om <= / 16000000 -> 1 / 10 ^ 11 <= om ->
  let s := 3.5 * ((eps + 13.2 * w * P) / f) + 530 * w * M in
  let mu := lam - 2 * s * n in
  let eta := 3 / 10 ^ 6 * (n / mu) * n + 3 * n * (25 * u + (n + 1) * v) in
  0 < mu -> n <= 250 * mu -> eta < mu ->
  let best := best_intersection_of_rays to64 from64 svd3_try_new rays in
  let e := (2600 * w * M + Z * s) * sqrt (n / mu) in
  exists x', best = Some (Ok (mkPoints [x'])) /\ vec_finite x' /\
    vdist (vreal x') X <= e + (eta * (vlen X + e) + n * (4 * M) * (810 * om + 6 * (n + 1) * v)) / (mu - eta).
Proof.
  intros P24 E1024 E0 E2 TX FR UW M1 P1 PB F0 FM Z1 EP n NM N36 L2 SEEN SP UO O1 O2 s mu eta MU NMU G.
  exact (C112_lemma prec emax Hp He fsin fcos gsin gcos E to64 from64 w M P f Z eps X rays truth om lam P24 E1024 E0 E2 TX FR UW M1 P1 PB F0 FM Z1 EP NM N36 L2 SEEN SP UO O1 O2 MU NMU G
    (C114b_lemma prec emax Hp He fsin fcos gsin gcos E to64 from64 w M P f Z eps X rays truth om lam P24 E1024 E0 E2 TX FR UW M1 P1 PB F0 FM Z1 EP NM N36 L2 SEEN SP UO O1 O2 MU NMU G)).
Qed.
End IEEE.

(** ** Single precision *)
Section F32.
Variables fsin fcos : f64 -> f64.
Variables hsin hcos : f32 -> f32.
Local Hint Extern 0 (Ops f64) => exact (f64_ops fsin fcos) : typeclass_instances.
Local Hint Extern 0 (Ops f32) => exact (f32_ops hsin hcos) : typeclass_instances.
Local Hint Extern 0 (Ops (binary_float 24 128)) => exact (f32_ops hsin hcos) : typeclass_instances.
Local Notation u := (bpow radix2 (- (24))).
Local Notation v := (bpow radix2 (- (53))).

Lemma sqrt_num58 n mu : 0 < mu -> n <= 58 * mu -> sqrt (n / mu) <= 7.62.
Proof.
  intros M N. replace 7.62 with (sqrt (7.62 * 7.62)) by (apply sqrt_square; lra). apply sqrt_le_1_alt.
  apply Rmult_le_reg_r with mu; [lra|]. unfold Rdiv. rewrite Rmult_assoc, Rinv_l by lra. lra.
Qed.
Lemma C115d_lemma Z eps X (rays : list (Ray WorldFrame f32)) truth lam :
  let n := INR (length rays) in
  1 <= Z -> 0 <= eps <= 1 / 10 -> (2 <= length rays)%nat -> n <= 1000 ->
  Forall2 (fun r t => seen_persp u 20 2000 500 Z eps X r t \/ seen_ortho u 20 2000 500 Z eps X r t) rays truth ->
  n <= 50 * lam -> spread lam truth ->
  exists x', best_intersection_of_rays f32_to_f64 f64_to_f32 svd3_try_new rays = Some (Ok (mkPoints [x'])) /\ vec_finite x' /\
    vdist (vreal x') X <= 6 / 100 * Z * eps + 6 / 1000 * Z + 3 / 100 * (n / lam) + 11 / 10 ^ 6 * (n / lam) ^ 2 * vlen X.
Proof.
  intros n Z1 EP L2 N3 SEEN NL SP. pose proof u_f64 as V. assert (V0 : 0 < v) by apply bpow_gt_0.
  assert (U : u = / 16777216) by (simpl; lra).
  assert (N2 : 2 <= n) by (apply (le_INR 2); exact L2). assert (L0 : 0 < lam) by lra.
  assert (LT : lam <= n).
  { unfold n. replace (length rays) with (length truth) by (clear -SEEN; induction SEEN; cbn; congruence). now apply spread_le'. }
  set (s := 3.5 * ((eps + 13.2 * u * 2000) / 500) + 530 * u * 20).
  assert (S1 : 0 < s) by (unfold s; lra).
  assert (S2 : s <= 7 / 1000 * eps + 6.6 / 10 ^ 4) by (unfold s; lra).
  set (mu := lam - 2 * s * n).
  assert (SN : 2 * s * n <= 13.7 / 100 * lam).
  { apply Rle_trans with (2 * (13.7 / 10000) * (50 * lam)); [|lra]. apply Rmult_le_compat; lra. }
  assert (MU : 86.3 / 100 * lam <= mu <= lam) by (unfold mu; assert (0 < s * n) by (apply Rmult_lt_0_compat; lra); lra).
  assert (NMU : n <= 58 * mu) by lra.
  assert (BB : 512 * 2000 * 20 < bpow radix2 128) by (apply Rlt_le_trans with (bpow radix2 40); [simpl; lra|apply bpow_le; lia]).
  set (q := n / mu). set (p := n / lam).
  assert (P1 : 1 <= p <= 50) by (unfold p; split; apply (Rmult_le_reg_r lam); try lra; unfold Rdiv; rewrite Rmult_assoc, Rinv_l by lra; lra).
  assert (PN : n = p * lam) by (unfold p; field; lra). assert (QN : n = q * mu) by (unfold q; field; lra).
  assert (QP : p <= q <= 1.16 * p).
  { split; apply (Rmult_le_reg_r mu); try lra; rewrite <- QN.
    - rewrite PN. apply Rmult_le_compat_l; lra.
    - apply Rle_trans with (1.16 * p * (86.3 / 100 * lam)); [|apply Rmult_le_compat_l; lra]. replace (1.16 * p * (86.3 / 100 * lam)) with (1.16 * (86.3 / 100) * n) by (rewrite PN; ring). lra. }
  assert (PP : 1 <= p * p <= 2500) by (split; [replace 1 with (1 * 1) by ring|replace 2500 with (50 * 50) by ring]; apply Rmult_le_compat; lra).
  assert (QQ : q * q <= 1.346 * (p * p)) by (apply Rle_trans with (1.16 * p * (1.16 * p)); [apply Rmult_le_compat; lra|lra]).
  assert (Q1 : 0 <= q) by lra. assert (PQ : p <= p * p) by (rewrite <- (Rmult_1_r p) at 1; apply Rmult_le_compat_l; lra).
  set (w0 := 25 * u + (n + 1) * v).
  assert (W0 : 0 < w0 <= 1.5 / 10 ^ 6).
  { unfold w0. assert ((n + 1) * v <= 1001 * v) by (apply Rmult_le_compat_r; lra). assert (0 < (n + 1) * v) by (apply Rmult_lt_0_compat; lra). lra. }
  set (eta := 3 / 10 ^ 6 * q * n + 3 * n * w0).
  assert (ET : 0 <= eta <= 10 / 10 ^ 6 * (p * p) * mu).
  { unfold eta. replace (3 / 10 ^ 6 * q * n + 3 * n * w0) with ((3 / 10 ^ 6 * (q * q) + 3 * (q * w0)) * mu) by (rewrite QN; ring).
    assert (q * w0 <= 1.16 * p * (1.5 / 10 ^ 6)) by (apply Rmult_le_compat; lra). assert (0 <= q * w0) by (apply Rmult_le_pos; lra). assert (0 <= q * q) by (apply Rmult_le_pos; lra). split.
    - apply Rmult_le_pos; lra.
    - apply Rmult_le_compat_r; lra. }
  assert (ET2 : eta <= 25 / 1000 * mu).
  { eapply Rle_trans; [apply ET|]. apply Rmult_le_compat_r; lra. }
  destruct (C115_lemma 24 128 f32_prec f32_emax hsin hcos fsin fcos 40 f32_to_f64 f64_to_f32 u 20 2000 500 Z eps X rays truth u lam)
    as (x' & Q & FX & D); try assumption; try lra; try lia.
  - exact f32_to_f64_exact.
  - exact f64_to_f32_rounds.
  - change (n * (4 * 20) <= bpow radix2 40). replace (bpow radix2 40) with 1099511627776 by (simpl; lra). lra.
  - change (n <= 2 ^ 36). simpl. lra.
  - change (0 < mu). lra.
  - change (n <= 250 * mu). lra.
  - change (eta < mu). lra.
  - exists x'. split; [exact Q|]. split; [exact FX|]. eapply Rle_trans; [exact D|]. change (INR (@length (Ray WorldFrame (binary_float 24 128)) rays)) with n.
    change (3.5 * ((eps + 13.2 * u * 2000) / 500) + 530 * u * 20) with s. change (lam - 2 * s * n) with mu. change (n / mu) with q.
    change (3 / 10 ^ 6 * q * n + 3 * n * (25 * u + (n + 1) * v)) with eta.
    assert (SQ : sqrt q <= 7.62) by (apply sqrt_num58; lra). pose proof (sqrt_pos q) as SQ0. set (sq := sqrt q) in *. clearbody sq.
    assert (X0 : 0 <= vlen X) by apply sqrt_pos.
    pose proof (Rmult_le_pos Z eps ltac:(lra) ltac:(lra)) as ZE.
    assert (T0 : 0 <= 2600 * u * 20 + Z * s) by (apply Rplus_le_le_0_compat; [lra|]; apply Rmult_le_pos; lra).
    assert (ZS : Z * s <= 7 / 1000 * (Z * eps) + 6.6 / 10 ^ 4 * Z).
    { replace (7 / 1000 * (Z * eps) + 6.6 / 10 ^ 4 * Z) with (Z * (7 / 1000 * eps + 6.6 / 10 ^ 4)) by ring. apply Rmult_le_compat_l; lra. }
    assert (E1 : (2600 * u * 20 + Z * s) * sq <= (3.2 / 1000 + (7 / 1000 * (Z * eps) + 6.6 / 10 ^ 4 * Z)) * 7.62) by (apply Rmult_le_compat; lra).
    assert (E0 : 0 <= (2600 * u * 20 + Z * s) * sq) by now apply Rmult_le_pos.
    set (e := (2600 * u * 20 + Z * s) * sq) in *. clearbody e.
    set (dd := 810 * u + 6 * (n + 1) * v).
    assert (D8 : 0 <= dd <= 4.85 / 10 ^ 5).
    { unfold dd. assert ((n + 1) * v <= 1001 * v) by (apply Rmult_le_compat_r; lra). assert (0 < (n + 1) * v) by (apply Rmult_lt_0_compat; lra). lra. }
    assert (H1 : (eta * (vlen X + e) + n * (4 * 20) * dd) / (mu - eta) <= (10 / 10 ^ 6 * (p * p) * (vlen X + e) + 1.16 * p * (4 * 20) * (4.85 / 10 ^ 5)) * 1.026).
    { apply (Rmult_le_reg_r (mu - eta)); [lra|]. unfold Rdiv at 1. rewrite Rmult_assoc, Rinv_l, Rmult_1_r by lra.
      set (b := 10 / 10 ^ 6 * (p * p) * (vlen X + e) + 1.16 * p * (4 * 20) * (4.85 / 10 ^ 5)).
      assert (B0 : 0 <= b) by (unfold b; apply Rplus_le_le_0_compat; [apply Rmult_le_pos; lra|lra]).
      apply Rle_trans with (b * mu); [|replace (b * 1.026 * (mu - eta)) with (b * (1.026 * (mu - eta))) by ring; apply Rmult_le_compat_l; lra].
      unfold b. replace ((10 / 10 ^ 6 * (p * p) * (vlen X + e) + 1.16 * p * (4 * 20) * (4.85 / 10 ^ 5)) * mu) with
        (10 / 10 ^ 6 * (p * p) * mu * (vlen X + e) + 1.16 * p * mu * (4 * 20) * (4.85 / 10 ^ 5)) by ring.
      apply Rplus_le_compat; [apply Rmult_le_compat_r; lra|]. apply Rmult_le_compat; [lra|lra| |lra]. apply Rmult_le_compat_r; [lra|]. rewrite QN. apply Rmult_le_compat_r; lra. }
    assert (H2 : 10 / 10 ^ 6 * (p * p) * e <= 25 / 1000 * e) by (apply Rmult_le_compat_r; lra).
    assert (H3 : 0 <= p * p * vlen X) by (apply Rmult_le_pos; lra).
    replace (11 / 10 ^ 6 * p ^ 2 * vlen X) with (11 / 10 ^ 6 * (p * p * vlen X)) by ring.
    eapply Rle_trans; [apply Rplus_le_compat_l, H1|].
    replace (10 / 10 ^ 6 * (p * p) * (vlen X + e)) with (10 / 10 ^ 6 * (p * p * vlen X) + 10 / 10 ^ 6 * (p * p) * e) by ring. lra.
Qed.
End F32.
