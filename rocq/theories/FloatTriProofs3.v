(** * FloatTriProofs3.v - triangulation in double precision (C102, C104) *)

From Coq Require Import ZArith Reals List Bool Lra Lia Psatz.
From Flocq Require Import Core BinarySingleNaN.
From Verif Require Import Scalar Linalg Bundles Extrinsics Perspective Orthographic Camera RayIntersection Rows Spec SpecGeom SpecIsect SpecTri SpecFloatErr SpecFloatIsect SpecFloatTri RealBase VecLemmas ExtrinsicsProofs IsectProofs SpectralProofs TriProofs FloatBase FloatRound FloatErrProofs FloatErrProofs2 FloatApprox FloatRigidProofs FloatProjProofs FloatDirProofs FloatIsectProofs4 FloatIsectProofs5 FloatViewProofs FloatWorldProofs FloatTriProofs FloatTriProofs2.
Import ListNotations.
Local Open Scope R_scope.

Section F64.
Variables fsin fcos : f64 -> f64.
Local Hint Extern 0 (Ops f64) => exact (f64_ops fsin fcos) : typeclass_instances.
Local Hint Extern 0 (Ops (binary_float 53 1024)) => exact (f64_ops fsin fcos) : typeclass_instances.
Local Notation u := (bpow radix2 (- (53))).

Lemma sqrt_num n mu : 2 <= n <= 10 -> 9 / 50 <= mu -> sqrt (n / mu) <= 7.5.
Proof.
  intros N M. replace 7.5 with (sqrt (7.5 * 7.5)) by (apply sqrt_square; lra). apply sqrt_le_1_alt.
  apply Rmult_le_reg_r with mu; [lra|]. unfold Rdiv. rewrite Rmult_assoc, Rinv_l by lra. lra.
Qed.

Lemma C104b_lemma Z eps X (rays : list (Ray WorldFrame f64)) truth svd eta lam :
  1 <= Z -> 0 <= eps <= 1 / 10 -> (2 <= length rays <= 10)%nat ->
  Forall2 (fun r t => seen_persp u 100 10000 500 Z eps X r t \/ seen_ortho u 100 10000 500 Z eps X r t) rays truth ->
  1 / 5 <= lam -> spread lam truth -> svd_near 20 eta (1 / 10 ^ 15) svd -> 0 <= eta <= 1 / 100 ->
  best_intersection_of_rays (fun x : f64 => Some x) (fun x : f64 => x) svd rays <> Some (Err SvdFailed) ->
  exists x', best_intersection_of_rays (fun x : f64 => Some x) (fun x : f64 => x) svd rays = Some (Ok (mkPoints [x'])) /\ vec_finite x' /\
    vdist (vreal x') X <= 6 / 100 * Z * eps + 1 / 10 ^ 8 * Z + (1 / 10 ^ 11 + 6 * eta) * vlen X.
Proof.
  intros Z1 EP (L2 & L10) SEEN LL SP SV ET NF. pose proof u_f64 as U. assert (U0 : 0 < u) by apply bpow_gt_0.
  set (n := INR (length rays)). assert (N2 : 2 <= n) by (apply (le_INR 2); exact L2).
  assert (N10 : n <= 10) by (unfold n; replace 10 with (INR 10) by (simpl; lra); now apply le_INR).
  set (kap := 1 / 10 ^ 15 * 2 ^ 53).
  assert (K : 0 <= kap <= 10) by (unfold kap; simpl; lra).
  assert (KV : kap * u = 1 / 10 ^ 15) by (unfold kap; replace u with (/ 2 ^ 53) by (simpl; lra); field; lra).
  set (eta0 := 3 * n * (25 * u + (n + 1) * u)).
  assert (Eta : eta0 <= 2 / 10 ^ 13).
  { apply Rle_trans with (3 * 10 * (36 * u)); [|lra]. apply Rmult_le_compat; nra. }
  assert (Eta0 : 0 < eta0) by (apply Rmult_lt_0_compat; nra).
  set (s := 3.5 * ((eps + 13.2 * u * 10000) / 500) + 530 * u * 100).
  assert (S1 : 0 < s) by (unfold s; lra).
  assert (S2 : s <= 7 / 1000 * eps + 2 / 10 ^ 11) by (unfold s; lra).
  set (mu := lam - 2 * s * n).
  assert (SN : 2 * s * n <= 2 * (7 / 1000 * eps + 2 / 10 ^ 11) * 10) by (apply Rmult_le_compat; lra).
  assert (MU : 9 / 50 <= mu) by (unfold mu; lra).
  assert (BB : 512 * 10000 * 100 < bpow radix2 1024) by (apply big_f64; lra).
  assert (W11 : u <= / 2048) by lra.
  destruct (C104_lemma 53 1024 f64_prec f64_emax fsin fcos fsin fcos 20 (fun x : f64 => Some x) (fun x : f64 => x) u 100 10000 500 Z eps X rays truth svd
    eta kap lam) as (x' & Q & FX & D); try assumption; try lra; try lia.
  - exact id_exact.
  - exact id_rounds.
  - change (n * (4 * 100) <= bpow radix2 20). replace (bpow radix2 20) with 1048576 by (simpl; lra). lra.
  - change (n <= 2 ^ 40). assert (10 <= 2 ^ 40) by (simpl; lra). lra.
  - rewrite KV. intros m ep k d Hm. change (mat_sized (2 * n) m) in Hm. apply SV.
    unfold mat_sized, sized in *. repeat (match goal with H : _ /\ _ |- _ => destruct H end). repeat (split; try assumption; try lra).
  - change (cutoff + (eta + eta0) < mu). pose proof cutoff_lt. lra.
  - exists x'. split; [exact Q|]. split; [exact FX|]. eapply Rle_trans; [exact D|]. change (INR (@length (Ray WorldFrame (binary_float 53 1024)) rays)) with n.
    change (3 * n * (25 * bpow radix2 (- (53)) + (n + 1) * bpow radix2 (- (53)))) with eta0.
    change (3.5 * ((eps + 13.2 * u * 10000) / 500) + 530 * u * 100) with s. change (lam - 2 * s * n) with mu.
    pose proof (sqrt_num n mu (conj N2 N10) MU) as SQ. pose proof (sqrt_pos (n / mu)) as SQ0.
    set (sq := sqrt (n / mu)) in *. clearbody sq.
    assert (X0 : 0 <= vlen X) by apply sqrt_pos.
    pose proof (Rmult_le_pos Z eps ltac:(lra) ltac:(lra)) as ZE.
    assert (T0 : 0 <= 2600 * u * 100 + Z * s) by (apply Rplus_le_le_0_compat; [lra|]; apply Rmult_le_pos; lra).
    assert (ZS : Z * s <= 7 / 1000 * (Z * eps) + 2 / 10 ^ 11 * Z).
    { replace (7 / 1000 * (Z * eps) + 2 / 10 ^ 11 * Z) with (Z * (7 / 1000 * eps + 2 / 10 ^ 11)) by ring. apply Rmult_le_compat_l; lra. }
    assert (E1 : (2600 * u * 100 + Z * s) * sq <= (4 / 10 ^ 11 + (7 / 1000 * (Z * eps) + 2 / 10 ^ 11 * Z)) * 7.5) by (apply Rmult_le_compat; lra).
    assert (E0 : 0 <= (2600 * u * 100 + Z * s) * sq) by now apply Rmult_le_pos.
    set (e := (2600 * u * 100 + Z * s) * sq) in *. clearbody e.
    assert (C1 : n * (4 * 100) * ((110 * kap + 700) * u + 6 * (n + 1) * u) <= 10 * 400 * (1866 * u)).
    { apply Rmult_le_compat; [lra| |lra|].
      - apply Rplus_le_le_0_compat; apply Rmult_le_pos; lra.
      - replace ((110 * kap + 700) * u + 6 * (n + 1) * u) with ((110 * kap + 700 + 6 * (n + 1)) * u) by ring. apply Rmult_le_compat_r; lra. }
    assert (C0 : 0 <= n * (4 * 100) * ((110 * kap + 700) * u + 6 * (n + 1) * u)).
    { apply Rmult_le_pos; [lra|]. apply Rplus_le_le_0_compat; apply Rmult_le_pos; lra. }
    set (cc := n * (4 * 100) * ((110 * kap + 700) * u + 6 * (n + 1) * u)) in *. clearbody cc.
    assert (H1 : (eta + eta0) * (vlen X + e) <= eta * vlen X + 1 / 100 * e + 2 / 10 ^ 13 * (vlen X + e)).
    { replace ((eta + eta0) * (vlen X + e)) with (eta * vlen X + eta * e + eta0 * (vlen X + e)) by ring.
      assert (eta * e <= 1 / 100 * e) by (apply Rmult_le_compat_r; lra).
      assert (eta0 * (vlen X + e) <= 2 / 10 ^ 13 * (vlen X + e)) by (apply Rmult_le_compat_r; lra). lra. }
    assert (H0 : 0 <= (eta + eta0) * (vlen X + e)) by (apply Rmult_le_pos; lra).
    assert (EX : 0 <= eta * vlen X) by (apply Rmult_le_pos; lra).
    set (h := (eta + eta0) * (vlen X + e)) in *. clearbody h.
    assert (H2 : (h + cc) / (mu - (eta + eta0)) <= (h + cc) / (169 / 1000)).
    { apply Rmult_le_compat_l; [lra|]. apply Rinv_le_contravar; lra. }
    lra.
Qed.

(** ** The program's own pixels *)
Local Notation cam a := (camera_new (perspective_from (fc_k a)) (from_rotation_and_camcenter (fc_qh a) (fc_c a))).
Lemma own_pixel X a : vec_sized 100 X -> good_cam X a ->
  exists r, (p <- world_to_pixel (cam a) (mkPoints [X]) ;; rb <- pixel_to_world (cam a) p ;; @to_single_ray f64 _ _ SharedOrigin_Bundle rb) = Some r /\
    seen_persp u 100 10000 500 350 (2.9 / 10 ^ 7) (vreal X) r (mkRay (vreal (fc_c a)) (vsub (vreal X) (vreal (fc_c a)))).
Proof.
  intros SX (U & N & C & FX & FY & SK & CX & CY & Z & PW). pose proof u_f64 as UF. pose proof u_f64' as UF'.
  destruct a as [k qh q c]. cbn [fc_k fc_qh fc_q fc_c] in *.
  assert (U0 : 0 < u) by apply bpow_gt_0.
  assert (B : 512 * 100 < bpow radix2 1024) by (apply big_f64; lra).
  assert (B' : 512 * 10000 * 100 < bpow radix2 1024) by (apply big_f64; lra).
  assert (K : persp_sized 10000 k).
  { unfold persp_sized. destruct FX as (F1 & F2), FY as (F3 & F4), SK as (F5 & F6).
    split; [split; [exact F1|split; [apply Rabs_pos|lra]]|]. split; [split; [exact F3|split; [apply Rabs_pos|lra]]|].
    split; [split; [exact F5|lra]|]. split; assumption. }
  assert (PW' : pix_within 10000 (pinhole k (to_camera q (vreal c) (vreal X)))) by (destruct PW; split; lra).
  destruct (proj1 (C70_lemma 53 1024 f64_prec f64_emax fsin fcos _ (Rle_refl _) ltac:(lra) ltac:(lia) qh q c 100 U N C ltac:(lra) B 10000 [X]
    ltac:(lra) B' (Forall_cons _ SX (Forall_nil _))) k K 1 ltac:(lra) ltac:(lra) (Forall_cons _ (conj Z PW') (Forall_nil _))) as (out & E & W).
  inversion W as [|? p ? out' W1 W2]; subst. inversion W2; subst. clear W W2.
  assert (W3 : pix_near (2.9 / 10 ^ 7) p (pinhole k (to_camera q (vreal c) (vreal X)))) by (eapply pix_near_weak; [exact W1|lra]).
  clear W1. 
  assert (PP : sized 0 10000 (px p) /\ sized 0 10000 (py p)).
  { destruct W3 as ((W1 & W2) & (W3 & W4)), PW as (Q1 & Q2).
    assert (G : forall a b : R, Rabs (a - b) <= 2.9 / 10 ^ 7 -> Rabs b <= 9999 -> Rabs a <= 10000).
    { intros a b A B0. replace a with ((a - b) + b) by ring. eapply Rle_trans; [apply tri; eassumption|]. lra. }
    split; (split; [assumption|split; [apply Rabs_pos|eapply G; eassumption]]). }
  exists (mkRay (iso_transform_point (c_pose_inv (e_cache (from_rotation_and_camcenter qh c))) v3_zero)
    (iso_transform_vector (c_pose_inv (e_cache (from_rotation_and_camcenter qh c))) (persp_unproject_row k p))).
  pose proof (persp_ray_eq 53 1024 f64_prec f64_emax fsin fcos qh c k p) as RE. unfold persp_ray in RE.
  split.
  { exact (eq_trans (f_equal (fun o => p0 <- o ;; rb <- pixel_to_world (camera_new (perspective_from k) (from_rotation_and_camcenter qh c)) p0 ;;
      @to_single_ray f64 _ _ SharedOrigin_Bundle rb) E) RE). }
  exists k, qh, q, c, p. repeat (split; [assumption|]).
  destruct PP as (PX & PY). destruct FX as (FX1 & FX2), FY as (FY1 & FY2), SK as (SK1 & SK2).
  split; [split; [exact SK1|lra]|]. split; [lra|]. split; [lra|]. split; [exact PX|]. split; [exact PY|].
  split.
  { rewrite Rabs_pos_eq by lra. split; [lra|]. eapply Rle_trans; [apply Rle_abs|].
    eapply Rle_trans; [apply (comp_le (to_camera q (vreal c) (vreal X)))|]. unfold to_camera. rewrite orthogonal_len by now apply rotm_orthogonal.
    replace 350 with (1.75 * (100 + 100)) by lra.
    assert (VL : vle (100 + 100) (vsub (vreal X) (vreal c))) by (apply vle_vsub; apply vec_sized_vle; assumption).
    destruct VL as (V1 & V2 & V3). apply vlen_bound; [lra|assumption..]. }
  split; [exact W3|]. split; [exact RE|reflexivity].
Qed.
Lemma C104c_lemma X (cams : list (fcam 53 1024)) lam : (2 <= length cams <= 10)%nat -> vec_sized 100 X ->
  Forall (good_cam X) cams -> 1 / 5 <= lam ->
  spread lam (map (fun a => mkRay (Coords := WorldFrame) (vreal (fc_c a)) (vsub (vreal X) (vreal (fc_c a)))) cams) ->
  exists rays,
    Forall2 (fun a r => (p <- world_to_pixel (cam a) (mkPoints [X]) ;; rb <- pixel_to_world (cam a) p ;;
                         @to_single_ray f64 _ _ SharedOrigin_Bundle rb) = Some r) cams rays /\
    forall svd eta, svd_near 20 eta (1 / 10 ^ 15) svd -> 0 <= eta <= 1 / 100 ->
    best_intersection_of_rays (fun x : f64 => Some x) (fun x : f64 => x) svd rays <> Some (Err SvdFailed) ->
    exists x', best_intersection_of_rays (fun x : f64 => Some x) (fun x : f64 => x) svd rays = Some (Ok (mkPoints [x'])) /\ vec_finite x' /\
      vdist (vreal x') (vreal X) <= 1 / 10 ^ 5 + 6 * eta * vlen (vreal X).
Proof.
  intros L SX G LL SP.
  assert (R : exists rays, Forall2 (fun a r => (p <- world_to_pixel (cam a) (mkPoints [X]) ;; rb <- pixel_to_world (cam a) p ;;
                         @to_single_ray f64 _ _ SharedOrigin_Bundle rb) = Some r) cams rays /\
     Forall2 (fun r t => seen_persp u 100 10000 500 350 (2.9 / 10 ^ 7) (vreal X) r t) rays
       (map (fun a => mkRay (Coords := WorldFrame) (vreal (fc_c a)) (vsub (vreal X) (vreal (fc_c a)))) cams) /\ length rays = length cams).
  { clear L LL SP. induction G as [|a l H _ (rays & A & B & D)]; [exists []; repeat constructor|].
    destruct (own_pixel X a SX H) as (r & E & S). exists (r :: rays). split; [constructor; assumption|]. split; [cbn [map]; constructor; assumption|].
    cbn [length]. now rewrite D. }
  destruct R as (rays & A & B & D). exists rays. split; [exact A|]. intros svd eta SV ET NF.
  destruct (C104b_lemma 350 (2.9 / 10 ^ 7) (vreal X) rays
    (map (fun a => mkRay (Coords := WorldFrame) (vreal (fc_c a)) (vsub (vreal X) (vreal (fc_c a)))) cams) svd eta lam) as (x' & Q & FX & E); try assumption; try lra.
  - now rewrite D.
  - eapply Forall2_impl'; [|exact B]. intros r t H. now left.
  - exists x'. split; [exact Q|]. split; [exact FX|]. eapply Rle_trans; [exact E|].
    assert (vlen (vreal X) <= 1.75 * 100) by (destruct (vec_sized_vle _ _ _ _ SX) as (V1 & V2 & V3); apply vlen_bound; [lra|assumption..]).
    lra.
Qed.
End F64.
