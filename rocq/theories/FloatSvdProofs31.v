(** * FloatSvdProofs31.v - triangulation in single precision from the program's own pixels (C125) *)

From Coq Require Import ZArith Reals List Bool Lra Lia Psatz.
From Flocq Require Import Core BinarySingleNaN.
From Verif Require Import Scalar Linalg Bundles Extrinsics Perspective Orthographic Camera RayIntersection SymEigen Rows Spec SpecGeom SpecIsect SpecTri SpecFloatErr SpecFloatIsect SpecFloatTri SpecFloatTri3 RealBase VecLemmas ExtrinsicsProofs IsectProofs SpectralProofs TriProofs Convert FloatBase FloatRound FloatErrProofs FloatErrProofs2 FloatApprox FloatRigidProofs FloatProjProofs FloatDirProofs FloatIsectProofs4 FloatIsectProofs5 FloatViewProofs FloatWorldProofs FloatTriProofs FloatTriProofs2 FloatSvdProofs26.
Import ListNotations.
Local Open Scope R_scope.

Section F32.
Variables fsin fcos : f64 -> f64.
Variables hsin hcos : f32 -> f32.
Local Hint Extern 0 (Ops f64) => exact (f64_ops fsin fcos) : typeclass_instances.
Local Hint Extern 0 (Ops f32) => exact (f32_ops hsin hcos) : typeclass_instances.
Local Hint Extern 0 (Ops (binary_float 24 128)) => exact (f32_ops hsin hcos) : typeclass_instances.
Local Notation u := (bpow radix2 (- (24))).
Local Notation cam a := (camera_new (perspective_from (fc_k a)) (from_rotation_and_camcenter (fc_qh a) (fc_c a))).

Lemma own_pixel32 d ZZ X a : 1 <= d -> vec_sized 20 X -> good_cam32 d ZZ X a ->
  exists r, (p <- world_to_pixel (cam a) (mkPoints [X]) ;; rb <- pixel_to_world (cam a) p ;; @to_single_ray f32 _ _ SharedOrigin_Bundle rb) = Some r /\
    seen_persp u 20 2000 500 ZZ (6.2 / d) (vreal X) r (mkRay (vreal (fc_c a)) (vsub (vreal X) (vreal (fc_c a)))).
Proof.
  intros D1 SX (U & N & C & FX & FY & SK & CX & CY & (Z & Z') & PW).
  destruct a as [k qh q c]. cbn [fc_k fc_qh fc_q fc_c] in *.
  assert (U24 : u = / 16777216) by (simpl; lra).
  assert (U0 : 0 < u) by apply bpow_gt_0.
  assert (BG : bpow radix2 40 < bpow radix2 128) by (apply bpow_lt; lia).
  assert (B40 : bpow radix2 40 = 1099511627776) by (simpl; lra).
  assert (B : 512 * 20 < bpow radix2 128) by lra.
  assert (B' : 512 * 2000 * 20 < bpow radix2 128) by lra.
  assert (K : persp_sized 2000 k).
  { unfold persp_sized. destruct FX as (F1 & F2), FY as (F3 & F4), SK as (F5 & F6).
    split; [split; [exact F1|split; [apply Rabs_pos|lra]]|]. split; [split; [exact F3|split; [apply Rabs_pos|lra]]|].
    split; [split; [exact F5|lra]|]. split; assumption. }
  assert (PW' : pix_within 2000 (pinhole k (to_camera q (vreal c) (vreal X)))) by (destruct PW; split; lra).
  destruct (proj1 (C70_lemma 24 128 f32_prec f32_emax hsin hcos _ (Rle_refl _) ltac:(lra) ltac:(lia) qh q c 20 U N C ltac:(lra) B 2000 [X]
    ltac:(lra) B' (Forall_cons _ SX (Forall_nil _))) k K d ltac:(lra) ltac:(lra) (Forall_cons _ (conj Z PW') (Forall_nil _))) as (out & E & W).
  inversion W as [|? p ? out' W1 W2]; subst. inversion W2; subst. clear W W2.
  assert (I0 : 0 < / d <= 1) by (split; [apply Rinv_0_lt_compat; lra|rewrite <- Rinv_1; apply Rinv_le_contravar; lra]).
  assert (W3 : pix_near (6.2 / d) p (pinhole k (to_camera q (vreal c) (vreal X)))).
  { eapply pix_near_weak; [exact W1|]. unfold Rdiv. rewrite <- Rmult_assoc. apply Rmult_le_compat_r; lra. }
  clear W1.
  assert (PP : sized 0 2000 (px p) /\ sized 0 2000 (py p)).
  { destruct W3 as ((W1 & W2) & (W3 & W4)), PW as (Q1 & Q2).
    assert (G : forall a b : R, Rabs (a - b) <= 6.2 / d -> Rabs b <= 1990 -> Rabs a <= 2000).
    { intros a b A B0. replace a with ((a - b) + b) by ring. eapply Rle_trans; [apply tri; eassumption|]. unfold Rdiv. lra. }
    split; (split; [assumption|split; [apply Rabs_pos|eapply G; eassumption]]). }
  exists (mkRay (iso_transform_point (c_pose_inv (e_cache (from_rotation_and_camcenter qh c))) v3_zero)
    (iso_transform_vector (c_pose_inv (e_cache (from_rotation_and_camcenter qh c))) (persp_unproject_row k p))).
  pose proof (persp_ray_eq 24 128 f32_prec f32_emax hsin hcos qh c k p) as RE. unfold persp_ray in RE.
  split.
  { exact (eq_trans (f_equal (fun o => p0 <- o ;; rb <- pixel_to_world (camera_new (perspective_from k) (from_rotation_and_camcenter qh c)) p0 ;;
      @to_single_ray f32 _ _ SharedOrigin_Bundle rb) E) RE). }
  exists k, qh, q, c, p. repeat (split; [assumption|]).
  destruct PP as (PX & PY). destruct FX as (FX1 & FX2), FY as (FY1 & FY2), SK as (SK1 & SK2).
  split; [split; [exact SK1|lra]|]. split; [lra|]. split; [lra|]. split; [exact PX|]. split; [exact PY|].
  split; [rewrite Rabs_pos_eq by lra; lra|].
  split; [exact W3|]. split; [exact RE|reflexivity].
Qed.

Lemma C125_lemma d ZZ X (cams : list (fcam 24 128)) lam : 1 <= d -> d <= ZZ -> (2 <= length cams)%nat -> INR (length cams) <= 1000 -> vec_sized 20 X ->
  Forall (good_cam32 d ZZ X) cams -> INR (length cams) <= 100 * lam -> INR (length cams) <= 1.6 * d * lam ->
  spread lam (map (fun a => mkRay (Coords := WorldFrame) (vreal (fc_c a)) (vsub (vreal X) (vreal (fc_c a)))) cams) ->
  exists rays,
    Forall2 (fun a r => (p <- world_to_pixel (cam a) (mkPoints [X]) ;; rb <- pixel_to_world (cam a) p ;;
                         @to_single_ray f32 _ _ SharedOrigin_Bundle rb) = Some r) cams rays /\
    exists x', best_intersection_of_rays f32_to_f64 f64_to_f32 svd3_try_new rays = Some (Ok (mkPoints [x'])) /\ vec_finite x' /\
      vdist (vreal x') (vreal X) <= sqrt (INR (length cams) / lam) * ZZ * (6 / 100 / d + 5 / 1000) + (INR (length cams) / lam) * (6 / 1000 + 11 / 10 ^ 6 * vlen (vreal X)).
Proof.
  intros D1 DZ L N3 SX G LL LD SP. assert (N2 : 2 <= INR (length cams)) by (apply (le_INR 2); exact L).
  assert (R : exists rays, Forall2 (fun a r => (p <- world_to_pixel (cam a) (mkPoints [X]) ;; rb <- pixel_to_world (cam a) p ;;
                         @to_single_ray f32 _ _ SharedOrigin_Bundle rb) = Some r) cams rays /\
     Forall2 (fun r t => seen_persp u 20 2000 500 ZZ (6.2 / d) (vreal X) r t) rays
       (map (fun a => mkRay (Coords := WorldFrame) (vreal (fc_c a)) (vsub (vreal X) (vreal (fc_c a)))) cams) /\ length rays = length cams).
  { clear L N2 N3 LL LD SP. induction G as [|a l H _ (rays & A & B & D)]; [exists []; repeat constructor|].
    destruct (own_pixel32 d ZZ X a D1 SX H) as (r & E & S). exists (r :: rays). split; [constructor; assumption|]. split; [cbn [map]; constructor; assumption|].
    cbn [length]. now rewrite D. }
  destruct R as (rays & A & B & D). exists rays. split; [exact A|].
  assert (I0 : 0 < / d) by (apply Rinv_0_lt_compat; lra). assert (L0 : 0 < lam) by lra.
  assert (I1 : d * / d = 1) by (apply Rinv_r; lra).
  destruct (C119b_lemma fsin fcos hsin hcos ZZ (6.2 / d) (vreal X) rays
    (map (fun a => mkRay (Coords := WorldFrame) (vreal (fc_c a)) (vsub (vreal X) (vreal (fc_c a)))) cams) lam) as (x' & Q & FX & E); try assumption; try lra.
  - now rewrite D.
  - now rewrite D.
  - eapply Forall2_impl'; [|exact B]. intros r t H. now left.
  - now rewrite D.
  - rewrite D. unfold Rdiv. apply Rle_trans with (6.2 * / d * (1.6 * d * lam)); [apply Rmult_le_compat_l; lra|].
    replace (6.2 * / d * (1.6 * d * lam)) with (6.2 * 1.6 * (d * / d) * lam) by ring. rewrite I1. lra.
  - exists x'. split; [exact Q|]. split; [exact FX|]. eapply Rle_trans; [exact E|]. rewrite D. pose proof (sqrt_pos (INR (length cams) / lam)).
    apply Rplus_le_compat_r. apply Rmult_le_compat_l; [apply Rmult_le_pos; lra|]. unfold Rdiv. lra.
Qed.
End F32.
