(** * FloatSvdProofs30.v - proof of C122: triangulation from arbitrary pixels gives a finite point *)

From Coq Require Import ZArith Reals List Bool Lra Lia Psatz.
From Flocq Require Import Core BinarySingleNaN.
From Verif Require Import Scalar SymEigen Linalg Bundles Extrinsics Perspective Orthographic Camera RayIntersection Rows Convert Spec SpecGeom SpecIsect SpecTri SpecFloatErr SpecFloatIsect SpecFloatTri SpecSvd SpecFloatSvd SpecFloatSvd2 RealBase VecLemmas ExtrinsicsProofs IsectBase IsectProofs SpectralProofs TriProofs SymEigenProofs6 FloatBase FloatRound FloatErrProofs FloatErrProofs2 FloatApprox FloatRigidProofs FloatProjProofs FloatDirProofs FloatIsectProofs FloatIsectProofs2 FloatIsectProofs3 FloatIsectProofs4 FloatIsectProofs5 FloatViewProofs FloatWorldProofs FloatTriProofs FloatTriProofs2 FloatTriProofs3 FloatSvdProofs14 FloatSvdProofs15 FloatSvdProofs16 FloatSvdProofs22 FloatSvdProofs23 FloatSvdProofs24 FloatSvdProofs25 FloatSvdProofs26 FloatSvdProofs28 FloatSvdProofs29 SpecFloatTri2.
Import ListNotations.
Local Open Scope R_scope.

Section C122.
Variables (prec emax : Z) (Hp : Prec_gt_0 prec) (He : Prec_lt_emax prec emax).
Variables fsin fcos : binary_float prec emax -> binary_float prec emax.
Local Notation F := (binary_float prec emax).
Local Hint Extern 0 (Ops (binary_float prec emax)) =>
  exact (B_ops prec emax Hp He fsin fcos) : typeclass_instances.
Variable w : R.
Local Notation u := (bpow radix2 (- prec)).
Local Notation big := (bpow radix2 emax).
Hypotheses (UR : u <= w) (U11 : w <= / 2048) (E17 : (17 <= emax)%Z).

Lemma view_sized M P f (r : Ray WorldFrame F) :
  1 <= M -> 1 <= P -> 512 * P * M < big -> 0 < f -> 5 * P <= M * f -> 1060 * w * M <= 1 -> any_view w M P f r ->
  vec_sized (4 * M) (ray_center r) /\ vec_finite (ray_direction r) /\ 1 / 2 <= vlen (vreal (ray_direction r)) <= 2.1 * M.
Proof.
  intros M1 P1 PB F0 FM WM H. pose proof (ud_pos prec w UR) as U0.
  assert (MB : 512 * M < big) by nra. assert (PB' : 512 * P < big) by nra.
  assert (UM : 0 < w * M <= M / 2048) by nra. assert (UU : w <= w * M) by nra.
  assert (FB : forall g, f <= Rabs g -> 5 * P <= M * Rabs g) by (intros g G; apply Rle_trans with (M * f); [exact FM|]; apply Rmult_le_compat_l; lra).
  destruct H as (qh & q & c & p & U & N & C & PX & PY & [H|H]).
  - destruct H as (k & K & SK & FX & FY & R). rewrite persp_ray_eq in R. injection R as <-. cbn [ray_center ray_direction].
    pose proof (center_near prec emax Hp He fsin fcos w UR U11 E17 qh q c M U N C M1 MB) as CN.
    destruct (persp_row_near prec emax Hp He fsin fcos w UR U11 E17 qh q c M U N M1 MB k P K SK P1 (FB _ FX) (FB _ FY) PB' p PX PY) as (y & Y1 & YL & _ & D).
    pose proof (orthogonal_mtr _ (rotm_orthogonal q U)) as OR.
    pose proof (vec_near_dist _ _ _ _ _ D) as DD.
    pose proof (vdist_len (vreal (iso_transform_vector (c_pose_inv (e_cache (from_rotation_and_camcenter qh c))) (persp_unproject_row k p))) (mv (mtr (rotm q)) y)) as LD.
    rewrite (orthogonal_len _ _ OR) in LD.
    assert (LY1 : 1 <= vlen y) by (rewrite <- Y1; eapply Rle_trans; [apply Rle_abs|apply comp_le]).
    assert (LY2 : vlen y <= 1.75 * M) by (apply vlen_bound; [lra|apply YL|apply YL|apply YL]).
    split; [|split].
    + eapply vec_sized_weak; [eapply vec_near_sized; [exact CN|exact (vec_sized_vle _ _ M c C)]|]. lra.
    + destruct D as ((D1 & _) & (D2 & _) & (D3 & _)). split; [exact D1|split; assumption].
    + split; [eapply Rle_trans; [|exact (proj1 LD)]; lra|eapply Rle_trans; [exact (proj2 LD)|]; lra].
  - destruct H as (k & K & SX & SY & R). rewrite ortho_ray_eq in R. injection R as <-. cbn [ray_center ray_direction].
    destruct (ortho_row_near prec emax Hp He fsin fcos w UR U11 E17 qh q c M U N C M1 MB k P K P1 (FB _ SX) (FB _ SY) PB' p PX PY) as (y & _ & YL & _ & CN).
    pose proof (ortho_dir_near prec emax Hp He fsin fcos w UR U11 E17 qh q c M U N M1 MB) as D.
    assert (LE : vlen (mv (mtr (rotm q)) (mkV3 0 0 1)) = 1).
    { rewrite orthogonal_len by (apply orthogonal_mtr, rotm_orthogonal, U). apply vlen_1. ru_spec; ring. }
    pose proof (vec_near_dist _ _ _ _ _ D) as DD.
    pose proof (vdist_len (vreal (iso_transform_vector (c_pose_inv (e_cache (from_rotation_and_camcenter qh c))) (mkV3 o_zero o_zero o_one))) (mv (mtr (rotm q)) (mkV3 0 0 1))) as LD.
    rewrite LE in LD.
    split; [|split].
    + eapply vec_sized_weak; [eapply vec_near_sized; [exact CN|]; apply (to_world_vle _ _ q c M U C); exact YL|]. lra.
    + destruct D as ((D1 & _) & (D2 & _) & (D3 & _)). split; [exact D1|split; assumption].
    + split; [eapply Rle_trans; [|exact (proj1 LD)]; lra|eapply Rle_trans; [exact (proj2 LD)|]; lra].
Qed.

Variables gsin gcos : f64 -> f64.
Local Hint Extern 0 (Ops f64) => exact (f64_ops gsin gcos) : typeclass_instances.
Local Hint Extern 0 (Ops (binary_float 53 1024)) => exact (f64_ops gsin gcos) : typeclass_instances.
Lemma C122_lemma (E : Z) to64 from64 M P f (rays : list (Ray WorldFrame F)) :
  (24 <= prec <= 53)%Z -> (emax <= 1024)%Z -> (0 <= E)%Z -> (2 * E + 34 <= emax)%Z ->
  exact_to64 to64 -> rounds_from64 from64 ->
  1 <= M -> 1 <= P -> 512 * P * M < big -> 0 < f -> 5 * P <= M * f -> 1060 * w * M <= 1 ->
  let n := INR (length rays) in
  n * (4 * M) <= bpow radix2 E -> n <= 2 ^ 36 -> (2 <= length rays)%nat -> Forall (any_view w M P f) rays ->
  exists x', best_intersection_of_rays to64 from64 svd3_try_new rays = Some (Ok (mkPoints [x'])) /\ vec_finite x' /\
    vlen (vreal x') <= 4 * 10 ^ 9 * (n * M).
Proof.
  intros P24 E1024 E0 E2 TX FR M1 P1 PB F0 FM WM n NM N36 L2 H.
  assert (N2 : 2 <= n) by (apply (le_INR 2); exact L2).
  assert (B1 : bpow radix2 1 <= bpow radix2 E).
  { change (bpow radix2 1) with 2. eapply Rle_trans; [|exact NM]. nra. }
  assert (B2 : bpow radix2 (- E) <= 1 / 2).
  { rewrite bpow_opp. replace (1 / 2) with (/ bpow radix2 1) by (simpl; lra). apply Rinv_le_contravar; [apply bpow_gt_0|exact B1]. }
  assert (RS : Forall (ray_sized E (4 * M)) rays).
  { eapply Forall_impl; [|exact H]. intros r Hr. destruct (view_sized M P f r M1 P1 PB F0 FM WM Hr) as (A1 & A2 & A3).
    split; [exact A1|]. split; [exact A2|]. split; [lra|]. apply Rle_trans with (2.1 * M); [apply A3|]. eapply Rle_trans; [|exact NM]. nra. }
  destruct (C121_lemma prec emax Hp He fsin fcos gsin gcos E to64 from64 (4 * M) rays P24 E1024 E0 E2 TX FR ltac:(lra) NM N36 L2 RS) as (x & R1 & R2 & R3).
  exists x. split; [exact R1|]. split; [exact R2|]. fold n in R3. lra.
Qed.
End C122.

Lemma good_any prec emax (O : Ops (binary_float prec emax)) w (a : fcam prec emax * V2 (binary_float prec emax)) r : good_view w a ->
  persp_ray (fc_k (fst a)) (fc_qh (fst a)) (fc_c (fst a)) (snd a) = Some r -> any_view w 100 10000 500 r.
Proof.
  destruct a as [[k qh q c] p]. unfold good_view. cbn [fst snd fc_k fc_qh fc_q fc_c]. intros (U & N & C & FX & FY & SK & CX & CY & PX & PY) R.
  exists qh, q, c, p. do 5 (split; [assumption|]). left. exists k.
  destruct FX as (F1 & F2), FY as (F3 & F4), SK as (F5 & F6).
  split. { split; [split; [exact F1|split; [apply Rabs_pos|lra]]|]. split; [split; [exact F3|split; [apply Rabs_pos|lra]]|].
    split; [split; [exact F5|lra]|]. split; assumption. }
  split; [split; [exact F5|lra]|]. split; [lra|]. split; [lra|exact R].
Qed.
Lemma rays_of {A B} (f : A -> option B) l : (forall a, exists b, f a = Some b) -> exists bs, Forall2 (fun a b => f a = Some b) l bs.
Proof. intros H. induction l as [|a l (bs & IH)]; [exists []; constructor|]. destruct (H a) as (b & E). exists (b :: bs). now constructor. Qed.

Section F64.
Variables fsin fcos : f64 -> f64.
Variables hsin hcos : f32 -> f32.
Local Hint Extern 0 (Ops f64) => exact (f64_ops fsin fcos) : typeclass_instances.
Local Hint Extern 0 (Ops f32) => exact (f32_ops hsin hcos) : typeclass_instances.
Local Hint Extern 0 (Ops (binary_float 53 1024)) => exact (f64_ops fsin fcos) : typeclass_instances.
Local Hint Extern 0 (Ops (binary_float 24 128)) => exact (f32_ops hsin hcos) : typeclass_instances.

Lemma C122a_lemma (views : list (fcam 53 1024 * V2 f64)) : (2 <= length views)%nat -> INR (length views) <= 1000000 ->
  Forall (good_view (bpow radix2 (- (53)))) views ->
  exists rays, Forall2 (fun a r => persp_ray (fc_k (fst a)) (fc_qh (fst a)) (fc_c (fst a)) (snd a) = Some r) views rays /\
    exists x', best_intersection_of_rays (fun x : f64 => Some x) (fun x : f64 => x) svd3_try_new rays = Some (Ok (mkPoints [x'])) /\ vec_finite x' /\
      vlen (vreal x') <= 4 * 10 ^ 11 * INR (length views).
Proof.
  intros L2 N6 H. pose proof u_f64 as U. assert (U0 : 0 < bpow radix2 (- (53))) by apply bpow_gt_0.
  destruct (rays_of (fun a : fcam 53 1024 * V2 f64 => persp_ray (fc_k (fst a)) (fc_qh (fst a)) (fc_c (fst a)) (snd a)) views) as (rays & HR).
  { intros a. eexists. apply persp_ray_eq. }
  exists rays. split; [exact HR|].
  assert (EL : length rays = length views) by (clear -HR; induction HR; cbn; congruence).
  assert (AV : Forall (any_view (bpow radix2 (- (53))) 100 10000 500) rays).
  { clear -H HR. induction HR as [|a r l l' E _ IH]; [constructor|]. inversion H; subst. constructor; [eapply good_any; eassumption|now apply IH]. }
  assert (b60 : bpow radix2 60 = 1152921504606846976) by (simpl; lra).
  destruct (C122_lemma 53 1024 f64_prec f64_emax fsin fcos (bpow radix2 (- (53))) (Rle_refl _) ltac:(lra) ltac:(lia) fsin fcos 60 (fun x : f64 => Some x) (fun x : f64 => x) 100 10000 500 rays
    ltac:(lia) ltac:(lia) ltac:(lia) ltac:(lia) id_exact id_rounds ltac:(lra) ltac:(lra) ltac:(apply big_f64; lra) ltac:(lra) ltac:(lra) ltac:(lra)) as (x & R1 & R2 & R3).
  - rewrite EL, b60. lra.
  - rewrite EL. simpl. lra.
  - now rewrite EL.
  - exact AV.
  - exists x. split; [exact R1|]. split; [exact R2|]. rewrite EL in R3. lra.
Qed.
Lemma C122b_lemma (views : list (fcam 24 128 * V2 f32)) : (2 <= length views)%nat -> INR (length views) <= 1000000 ->
  Forall (good_view (bpow radix2 (- (24)))) views ->
  exists rays, Forall2 (fun a r => persp_ray (fc_k (fst a)) (fc_qh (fst a)) (fc_c (fst a)) (snd a) = Some r) views rays /\
    exists x', best_intersection_of_rays f32_to_f64 f64_to_f32 svd3_try_new rays = Some (Ok (mkPoints [x'])) /\ vec_finite x' /\
      vlen (vreal x') <= 4 * 10 ^ 11 * INR (length views).
Proof.
  intros L2 N6 H. assert (U24 : bpow radix2 (- (24)) = / 16777216) by (simpl; lra).
  destruct (rays_of (fun a : fcam 24 128 * V2 f32 => persp_ray (fc_k (fst a)) (fc_qh (fst a)) (fc_c (fst a)) (snd a)) views) as (rays & HR).
  { intros a. eexists. apply persp_ray_eq. }
  exists rays. split; [exact HR|].
  assert (EL : length rays = length views) by (clear -HR; induction HR; cbn; congruence).
  assert (AV : Forall (any_view (bpow radix2 (- (24))) 100 10000 500) rays).
  { clear -H HR. induction HR as [|a r l l' E _ IH]; [constructor|]. inversion H; subst. constructor; [eapply good_any; eassumption|now apply IH]. }
  assert (b47 : bpow radix2 47 = 140737488355328) by (simpl; lra).
  assert (BB : 512 * 10000 * 100 < bpow radix2 128) by (apply Rlt_le_trans with (bpow radix2 47); [rewrite b47; lra|apply bpow_le; lia]).
  destruct (C122_lemma 24 128 f32_prec f32_emax hsin hcos (bpow radix2 (- (24))) (Rle_refl _) ltac:(rewrite U24; lra) ltac:(lia) fsin fcos 47 f32_to_f64 f64_to_f32 100 10000 500 rays
    ltac:(lia) ltac:(lia) ltac:(lia) ltac:(lia) f32_to_f64_exact f64_to_f32_rounds ltac:(lra) ltac:(lra) BB ltac:(lra) ltac:(lra) ltac:(rewrite U24; lra)) as (x & R1 & R2 & R3).
  - rewrite EL, b47. lra.
  - rewrite EL. simpl. lra.
  - now rewrite EL.
  - exact AV.
  - exists x. split; [exact R1|]. split; [exact R2|]. rewrite EL in R3. lra.
Qed.
End F64.
