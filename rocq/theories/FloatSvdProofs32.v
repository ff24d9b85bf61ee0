(** * FloatSvdProofs32.v - triangulation from the program's own pixels in cameras of both kinds (C126) *)

From Coq Require Import ZArith Reals List Bool Lra Lia Psatz.
From Flocq Require Import Core BinarySingleNaN.
From Verif Require Import Scalar Linalg Bundles Extrinsics Perspective Orthographic Camera RayIntersection SymEigen Rows Spec SpecGeom SpecIsect SpecTri SpecFloatErr SpecFloatIsect SpecFloatTri SpecFloatTri3 RealBase VecLemmas ExtrinsicsProofs IsectProofs SpectralProofs TriProofs FloatBase FloatRound FloatErrProofs FloatErrProofs2 FloatApprox FloatRigidProofs FloatProjProofs FloatDirProofs FloatIsectProofs4 FloatIsectProofs5 FloatViewProofs FloatWorldProofs FloatTriProofs FloatTriProofs2 FloatTriProofs3 FloatSvdProofs26.
Import ListNotations.
Local Open Scope R_scope.

Section F64.
Variables fsin fcos : f64 -> f64.
Local Hint Extern 0 (Ops f64) => exact (f64_ops fsin fcos) : typeclass_instances.
Local Hint Extern 0 (Ops (binary_float 53 1024)) => exact (f64_ops fsin fcos) : typeclass_instances.
Local Notation u := (bpow radix2 (- (53))).

Lemma depth_350 q (c X : V3 f64) : unit_quat q -> vec_sized 100 c -> vec_sized 100 X -> Rabs (depth q (vreal c) (vreal X)) <= 350.
Proof.
  intros U C SX. unfold depth. eapply Rle_trans; [apply (comp_le (to_camera q (vreal c) (vreal X)))|]. unfold to_camera. rewrite orthogonal_len by now apply rotm_orthogonal.
  replace 350 with (1.75 * (100 + 100)) by lra.
  assert (VL : vle (100 + 100) (vsub (vreal X) (vreal c))) by (apply vle_vsub; apply vec_sized_vle; assumption).
  destruct VL as (V1 & V2 & V3). apply vlen_bound; [lra|assumption..].
Qed.

Lemma own_pixel_ortho X a : vec_sized 100 X -> good_ortho X a ->
  exists r, own_ray X (inr a) = Some r /\ seen_ortho u 100 10000 500 350 (2.9 / 10 ^ 7) (vreal X) r (true_line (vreal X) (inr a)).
Proof.
  intros SX (U & N & C & FX & FY & CX & CY & PW). pose proof u_f64 as UF. pose proof u_f64' as UF'.
  destruct a as [k qh q c]. cbn [fo_k fo_qh fo_q fo_c] in *.
  assert (U0 : 0 < u) by apply bpow_gt_0.
  assert (B : 512 * 100 < bpow radix2 1024) by (apply big_f64; lra).
  assert (B' : 512 * 10000 * 100 < bpow radix2 1024) by (apply big_f64; lra).
  assert (K : ortho_sized 10000 k).
  { unfold ortho_sized. destruct FX as (F1 & F2), FY as (F3 & F4).
    split; [split; [exact F1|split; [apply Rabs_pos|lra]]|]. split; [split; [exact F3|split; [apply Rabs_pos|lra]]|]. split; assumption. }
  destruct (proj2 (C70_lemma 53 1024 f64_prec f64_emax fsin fcos _ (Rle_refl _) ltac:(lra) ltac:(lia) qh q c 100 U N C ltac:(lra) B 10000 [X]
    ltac:(lra) B' (Forall_cons _ SX (Forall_nil _))) k K) as (out & E & W).
  inversion W as [|? p ? out' W1 W2]; subst. inversion W2; subst. clear W W2.
  assert (W3 : pix_near (2.9 / 10 ^ 7) p (parallel_pixel k (to_camera q (vreal c) (vreal X)))) by (eapply pix_near_weak; [exact W1|lra]).
  clear W1.
  assert (PP : sized 0 10000 (px p) /\ sized 0 10000 (py p)).
  { destruct W3 as ((W1 & W2) & (W3 & W4)), PW as (Q1 & Q2).
    assert (G : forall a b : R, Rabs (a - b) <= 2.9 / 10 ^ 7 -> Rabs b <= 9999 -> Rabs a <= 10000).
    { intros a b A B0. replace a with ((a - b) + b) by ring. eapply Rle_trans; [apply tri; eassumption|]. lra. }
    split; (split; [assumption|split; [apply Rabs_pos|eapply G; eassumption]]). }
  exists (mkRay (iso_transform_point (c_pose_inv (e_cache (from_rotation_and_camcenter qh c))) (ortho_unproject_row k p))
    (iso_transform_vector (c_pose_inv (e_cache (from_rotation_and_camcenter qh c))) (mkV3 o_zero o_zero o_one))).
  pose proof (ortho_ray_eq 53 1024 f64_prec f64_emax fsin fcos qh c k p) as RE. unfold ortho_ray in RE.
  split.
  { exact (eq_trans (f_equal (fun o => p0 <- o ;; rb <- pixel_to_world (camera_new (orthographic_from k) (from_rotation_and_camcenter qh c)) p0 ;;
      @to_single_ray f64 _ _ SharedDirection_Bundle rb) E) RE). }
  exists k, qh, q, c, p. repeat (split; [assumption|]).
  destruct PP as (PX & PY). destruct FX as (FX1 & FX2), FY as (FY1 & FY2).
  split; [lra|]. split; [lra|]. split; [exact PX|]. split; [exact PY|].
  split; [now apply depth_350|].
  split; [exact W3|]. split; [exact RE|reflexivity].
Qed.

Lemma C126_lemma X (cams : list (fcam 53 1024 + focam 53 1024)) lam : (2 <= length cams)%nat -> INR (length cams) <= 1000 -> vec_sized 100 X ->
  Forall (good_any X) cams -> INR (length cams) <= 10 ^ 4 * lam -> spread lam (map (true_line (vreal X)) cams) ->
  exists rays, Forall2 (fun a r => own_ray X a = Some r) cams rays /\
    exists x', best_intersection_of_rays (fun x : f64 => Some x) (fun x : f64 => x) svd3_try_new rays = Some (Ok (mkPoints [x'])) /\ vec_finite x' /\
      vdist (vreal x') (vreal X) <= 1 / 10 ^ 6 * sqrt (INR (length cams) / lam) + 4 / 10 ^ 6 * (INR (length cams) / lam) * (1 + vlen (vreal X)).
Proof.
  intros L N3 SX G LL SP. assert (N2 : 2 <= INR (length cams)) by (apply (le_INR 2); exact L).
  assert (R : exists rays, Forall2 (fun a r => own_ray X a = Some r) cams rays /\
     Forall2 (fun r t => seen_persp u 100 10000 500 350 (2.9 / 10 ^ 7) (vreal X) r t \/ seen_ortho u 100 10000 500 350 (2.9 / 10 ^ 7) (vreal X) r t) rays
       (map (true_line (vreal X)) cams) /\ length rays = length cams).
  { clear L N2 N3 LL SP. induction G as [|a l H _ (rays & A & B & D)]; [exists []; repeat constructor|].
    assert (Q : exists r, own_ray X a = Some r /\ (seen_persp u 100 10000 500 350 (2.9 / 10 ^ 7) (vreal X) r (true_line (vreal X) a) \/
      seen_ortho u 100 10000 500 350 (2.9 / 10 ^ 7) (vreal X) r (true_line (vreal X) a))).
    { destruct a as [a|a].
      - destruct (own_pixel fsin fcos X a SX H) as (r & E & S). exists r. split; [exact E|left; exact S].
      - destruct (own_pixel_ortho X a SX H) as (r & E & S). exists r. split; [exact E|right; exact S]. }
    destruct Q as (r & E & S). exists (r :: rays). split; [constructor; assumption|]. split; [cbn [map]; constructor; assumption|].
    cbn [length]. now rewrite D. }
  destruct R as (rays & A & B & D). exists rays. split; [exact A|].
  assert (D' : @length (Ray WorldFrame f64) rays = length cams) by exact D.
  destruct (C119a_lemma fsin fcos 350 (2.9 / 10 ^ 7) (vreal X) rays (map (true_line (vreal X)) cams) lam) as (x' & Q & FX & E); try assumption; try lra.
  - now rewrite ?D, ?D'.
  - now rewrite ?D, ?D'.
  - now rewrite ?D, ?D'.
  - rewrite ?D, ?D'. lra.
  - exists x'. split; [exact Q|]. split; [exact FX|]. eapply Rle_trans; [exact E|]. rewrite ?D, ?D'. pose proof (sqrt_pos (INR (length cams) / lam)). lra.
Qed.
End F64.
