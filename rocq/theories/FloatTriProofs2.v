(** * FloatTriProofs2.v - triangulation in IEEE arithmetic (C102-C104) *)

From Coq Require Import ZArith Reals List Bool Lra Lia Psatz.
From Flocq Require Import Core BinarySingleNaN.
From Verif Require Import Scalar Linalg Bundles Extrinsics Perspective Orthographic Camera RayIntersection Rows Spec SpecGeom SpecIsect SpecTri SpecFloatErr SpecFloatIsect SpecFloatTri RealBase VecLemmas ExtrinsicsProofs IsectProofs SpectralProofs TriProofs FloatBase FloatRound FloatErrProofs FloatErrProofs2 FloatApprox FloatRigidProofs FloatProjProofs FloatDirProofs FloatIsectProofs4 FloatIsectProofs5 FloatViewProofs FloatWorldProofs FloatTriProofs.
Import ListNotations.
Local Open Scope R_scope.

(** ** Real lines close to others *)
Lemma tilt_spread {C} (rays truth : list (Ray C R)) lam s : 0 <= s < 1 ->
  Forall2 (fun r t => ray_direction r <> vO /\ ray_direction t <> vO /\
             exists z, vdist (vscl z (ray_direction r)) (ray_direction t) <= s * vlen (ray_direction t)) rays truth ->
  spread lam truth -> spread (lam - 2 * s * INR (length rays)) rays.
Proof.
  intros S H SP v V. specialize (SP v V).
  assert (G : sum_sq_sin truth v - 2 * s * INR (length rays) <= sum_sq_sin rays v).
  { clear SP lam. unfold sum_sq_sin. induction H as [|r t rays truth (A & B & z & D) _ IH].
    - cbn. lra.
    - rewrite !rsum_cons. change (length (r :: rays)) with (Datatypes.S (length rays)). rewrite S_INR.
      pose proof (line_tilt v _ _ z s A B S D V). lra. }
  lra.
Qed.
Lemma passing_point {C} (rays : list (Ray C R)) X lam e : (2 <= length rays)%nat -> nonzero_dirs rays -> cutoff < lam -> spread lam rays -> 0 <= e ->
  Forall (fun r => exists z, vdist X (vadd (ray_center r) (vscl z (ray_direction r))) <= e) rays ->
  exists x, (forall y, sum_sq_dist rays x <= sum_sq_dist rays y) /\ vdist x X <= e * sqrt (INR (length rays) / lam).
Proof.
  intros L N G SP E0 H. destruct (C62_lemma rays) as (svd & HS & NF).
  destruct (C86_lemma svd rays lam HS L N G SP NF) as (x & _ & Q & B). exists x. split.
  - intros y. specialize (Q y). pose proof cutoff_pos. pose proof (Rle_0_sqr (vdist y x)). nra.
  - apply B; [exact E0|]. apply Forall_forall. intros r Hr. unfold nonzero_dirs in N. rewrite Forall_forall in H, N.
    destruct (H r Hr) as (z & Hz). now apply near_line with z; [apply N|].
Qed.

Section Tri.
Variables (prec emax : Z) (Hp : Prec_gt_0 prec) (He : Prec_lt_emax prec emax).
Variables fsin fcos : binary_float prec emax -> binary_float prec emax.
Local Notation F := (binary_float prec emax).
Local Hint Extern 0 (Ops (binary_float prec emax)) =>
  exact (B_ops prec emax Hp He fsin fcos) : typeclass_instances.
Variable u : R.
Local Notation big := (bpow radix2 emax).
Hypotheses (UR : bpow radix2 (- prec) <= u) (U11 : u <= / 2048) (E17 : (17 <= emax)%Z).
Local Notation u_pos := (ud_pos prec u UR).

(** ** C102 *)
Local Notation okpix P := (fun p : V2 F => sized 0 P (px p) /\ sized 0 P (py p)).
Lemma C102_lemma qh q c M P ps : unit_quat q -> quat_near (8 * u) qh q -> vec_sized M c -> 1 <= M -> 1 <= P -> 512 * P * M < big ->
  Forall (okpix P) ps ->
  (forall k : PerspectiveParams F, persp_sized P k -> sized 0 (Rabs (B2R (pp_fy k))) (pp_skew k) ->
     5 * P <= M * Rabs (B2R (pp_fx k)) -> 5 * P <= M * Rabs (B2R (pp_fy k)) ->
     exists center dirs, pixel_to_world (camera_new (perspective_from k) (from_rotation_and_camcenter qh c)) (mkPixels ps)
         = Some (mkRayBundle dirs (mkSO center)) /\
       vec_near (1461 * u * M) center (vreal c) /\
       Forall2 (fun p d => exists y, vz y = 1 /\ pix_near (13.2 * u * P) p (pinhole k y) /\
         vec_near (302 * u * M) d (mv (mtr (rotm q)) y)) ps dirs) /\
  (forall k : OrthographicParams F, ortho_sized P k ->
     5 * P <= M * Rabs (B2R (op_sx k)) -> 5 * P <= M * Rabs (B2R (op_sy k)) ->
     exists centers d, pixel_to_world (camera_new (orthographic_from k) (from_rotation_and_camcenter qh c)) (mkPixels ps)
         = Some (mkRayBundle centers (mkSD d)) /\
       vec_near (302 * u) d (mv (mtr (rotm q)) (mkV3 0 0 1)) /\
       Forall2 (fun p x => exists y, vz y = 0 /\ pix_near (4.1 * u * P) p (parallel_pixel k y) /\
         vec_near (1461 * u * M) x (to_world q (vreal c) y)) ps centers).
Proof.
  intros U N C M1 P1 PB H.
  assert (MB : 512 * M < big) by nra. assert (PB' : 512 * P < big) by nra. split.
  - intros k K SK FX FY. do 2 eexists. split; [unfold camera_new; apply persp_pixel_to_world_rows|].
    split; [apply (center_near prec emax Hp He fsin fcos u UR U11 E17 qh q c M U N C M1 MB)|].
    cbn [pix_data]. apply Forall2_map_l. eapply Forall_impl; [|exact H]. intros p (PX & PY).
    destruct (persp_row_near prec emax Hp He fsin fcos u UR U11 E17 qh q c M U N M1 MB k P K SK P1 FX FY PB' p PX PY) as (y & Y1 & _ & Q & D).
    exists y. split; [exact Y1|split; [exact Q|exact D]].
  - intros k K SX SY. do 2 eexists. split; [unfold camera_new; apply ortho_pixel_to_world_rows|].
    split; [apply (ortho_dir_near prec emax Hp He fsin fcos u UR U11 E17 qh q c M U N M1 MB)|].
    cbn [pix_data]. apply Forall2_map_l. eapply Forall_impl; [|exact H]. intros p (PX & PY).
    destruct (ortho_row_near prec emax Hp He fsin fcos u UR U11 E17 qh q c M U N C M1 MB k P K P1 SX SY PB' p PX PY) as (y & Y1 & _ & Q & D).
    exists y. split; [exact Y1|split; [exact Q|exact D]].
Qed.

(** ** C103 *)
Lemma seen_facts M P f Z eps X (r : Ray WorldFrame F) t :
  1 <= M -> 1 <= P -> 512 * P * M < big -> 0 < f -> 5 * P <= M * f -> 1 <= Z -> 0 <= eps ->
  let s := 3.5 * ((eps + 13.2 * u * P) / f) + 530 * u * M in
  s < 1 / 2 ->
  seen_persp u M P f Z eps X r t \/ seen_ortho u M P f Z eps X r t ->
  vec_sized (4 * M) (ray_center r) /\ vec_finite (ray_direction r) /\ 1 / 2 <= vlen (vreal (ray_direction r)) <= 2.1 * M /\
  (exists z, vdist X (vadd (vreal (ray_center r)) (vscl z (vreal (ray_direction r)))) <= 2600 * u * M + Z * s) /\
  ray_direction t <> vO /\ exists z, vdist (vscl z (vreal (ray_direction r))) (ray_direction t) <= s * vlen (ray_direction t).
Proof.
  intros M1 P1 PB F0 FM Z1 EP s S H. pose proof u_pos as U0.
  assert (MB : 512 * M < big) by nra. assert (PB' : 512 * P < big) by nra.
  assert (UM : 0 < u * M <= M / 2048) by nra. assert (UP : 0 < u * P) by nra.
  assert (If : 0 < / f) by now apply Rinv_0_lt_compat.
  assert (S1 : 0 <= (eps + 13.2 * u * P) / f) by (apply Rmult_le_pos; lra).
  assert (FB : forall g, f <= Rabs g -> 5 * P <= M * Rabs g) by (intros g G; apply Rle_trans with (M * f); [exact FM|]; apply Rmult_le_compat_l; lra).
  destruct H as [H|H].
  - destruct H as (k & qh & q & c & p & U & N & C & K & SK & FX & FY & PX & PY & (Z0 & ZZ) & Q & R & ->).
    rewrite persp_ray_eq in R. injection R as <-. cbn [ray_center ray_direction].
    assert (Zn : depth q (vreal c) X <> 0) by (intros G; rewrite G, Rabs_R0 in Z0; lra).
    destruct (persp_pass prec emax Hp He fsin fcos u UR U11 E17 qh q c M U N C M1 MB k P K SK P1 (FB _ FX) (FB _ FY) PB' p X f eps PX PY F0 FX FY Zn Q)
      as (A1 & A2 & A3 & A4). fold s in A1, A2.
    pose proof (center_near prec emax Hp He fsin fcos u UR U11 E17 qh q c M U N C M1 MB) as CN.
    destruct (persp_row_near prec emax Hp He fsin fcos u UR U11 E17 qh q c M U N M1 MB k P K SK P1 (FB _ FX) (FB _ FY) PB' p PX PY) as (y & _ & _ & _ & D).
    split; [|split; [|split; [|split; [|split]]]].
    + eapply vec_sized_weak; [eapply vec_near_sized; [exact CN|exact (vec_sized_vle _ _ M c C)]|]. lra.
    + destruct D as ((D1 & _) & (D2 & _) & (D3 & _)). split; [exact D1|split; assumption].
    + split; [eapply Rle_trans; [|exact (proj1 A3)]; unfold s in S; lra|exact (proj2 A3)].
    + exists (depth q (vreal c) X). eapply Rle_trans; [exact A2|]. apply Rplus_le_compat_l. apply Rmult_le_compat_r; [unfold s; lra|exact ZZ].
    + intros E. rewrite E, vlen_O in A4. lra.
    + exists (depth q (vreal c) X). eapply Rle_trans; [exact A1|]. rewrite Rmult_comm. apply Rmult_le_compat_l; [unfold s; lra|exact A4].
  - destruct H as (k & qh & q & c & p & U & N & C & K & SX & SY & PX & PY & ZZ & Q & R & ->).
    rewrite ortho_ray_eq in R. injection R as <-. cbn [ray_center ray_direction].
    destruct (ortho_pass prec emax Hp He fsin fcos u UR U11 E17 qh q c M U N C M1 MB k P K P1 (FB _ SX) (FB _ SY) PB' p X f eps PX PY F0 SX SY Q)
      as (A1 & A2).
    destruct (ortho_row_near prec emax Hp He fsin fcos u UR U11 E17 qh q c M U N C M1 MB k P K P1 (FB _ SX) (FB _ SY) PB' p PX PY) as (y & _ & YL & _ & CN).
    pose proof (ortho_dir_near prec emax Hp He fsin fcos u UR U11 E17 qh q c M U N M1 MB) as D.
    assert (LE : vlen (mv (mtr (rotm q)) (mkV3 0 0 1)) = 1).
    { rewrite orthogonal_len by (apply orthogonal_mtr, rotm_orthogonal, U). apply vlen_1. ru_spec; ring. }
    assert (UU : u <= u * M) by nra. assert (US : 530 * u <= s) by (unfold s; lra).
    pose proof (vdist_len (vreal (iso_transform_vector (c_pose_inv (e_cache (from_rotation_and_camcenter qh c))) (mkV3 o_zero o_zero o_one))) (mv (mtr (rotm q)) (mkV3 0 0 1))) as LD.
    rewrite LE in LD.
    split; [|split; [|split; [|split; [|split]]]].
    + eapply vec_sized_weak; [eapply vec_near_sized; [exact CN|]; apply (to_world_vle _ _ q c M U C); exact YL|]. lra.
    + destruct D as ((D1 & _) & (D2 & _) & (D3 & _)). split; [exact D1|split; assumption].
    + split; [eapply Rle_trans; [|exact (proj1 LD)]; lra|eapply Rle_trans; [exact (proj2 LD)|]; lra].
    + exists (depth q (vreal c) X). eapply Rle_trans; [exact A2|].
      assert (B1 : Rabs (depth q (vreal c) X) * (530 * u) <= Z * (530 * u * M)).
      { apply Rmult_le_compat; [apply Rabs_pos|lra|exact ZZ|lra]. }
      assert (B2 : 1.75 * ((eps + 4.1 * u * P) / f) <= Z * (3.5 * ((eps + 13.2 * u * P) / f))).
      { assert (Q1 : (eps + 4.1 * u * P) / f <= (eps + 13.2 * u * P) / f) by (apply Rmult_le_compat_r; lra).
        apply Rle_trans with (1 * (3.5 * ((eps + 13.2 * u * P) / f))); [lra|]. apply Rmult_le_compat_r; lra. }
      unfold s. rewrite Rmult_plus_distr_l. lra.
    + intros E. rewrite E, vlen_O in LE. lra.
    + exists 1. rewrite vscl_1, LE. eapply Rle_trans; [exact A1|]. lra.
Qed.
Lemma C103_lemma M P f Z eps X (r : Ray WorldFrame F) t :
  1 <= M -> 1 <= P -> 512 * P * M < big -> 0 < f -> 5 * P <= M * f -> 1 <= Z -> 0 <= eps ->
  let s := 3.5 * ((eps + 13.2 * u * P) / f) + 530 * u * M in
  s < 1 / 2 ->
  seen_persp u M P f Z eps X r t \/ seen_ortho u M P f Z eps X r t ->
  line_dist2 X (vreal (ray_center r)) (vreal (ray_direction r)) <= (2600 * u * M + Z * s)² /\
  line_dist2 (ray_direction t) vO (vreal (ray_direction r)) <= (s * vlen (ray_direction t))².
Proof.
  intros M1 P1 PB F0 FM Z1 EP s S H.
  destruct (seen_facts M P f Z eps X r t M1 P1 PB F0 FM Z1 EP S H) as (_ & _ & L & (z & Hz) & _ & z' & Hz').
  fold s in Hz, Hz'.
  assert (N : vreal (ray_direction r) <> vO) by (intros E; rewrite E, vlen_O in L; lra).
  split; unfold Rsqr.
  - now apply near_line with z.
  - apply near_line with z'; [exact N|]. rewrite vadd_0_l, vdist_sym. exact Hz'.
Qed.
End Tri.

(** ** C104 *)
Lemma line_dist2_le v d : line_dist2 v vO d <= vdot v v.
Proof.
  destruct (V3_dec d vO) as [->|D].
  - unfold line_dist2. replace (vcross (vsub v vO) vO) with vO by vring. rewrite vdot_O_l. unfold Rdiv. rewrite Rmult_0_l. apply vdot_self_nonneg.
  - pose proof (proj1 (C39b_lemma v vO d D) 0) as Q. now rewrite vadd_0_l, vscl_0, vsub_0_r in Q.
Qed.
Lemma spread_le' {C} (rays : list (Ray C R)) lam : spread lam rays -> lam <= INR (length rays).
Proof.
  intros S. assert (V1 : vdot (mkV3 1 0 0) (mkV3 1 0 0) = 1) by (ru_spec; ring).
  specialize (S _ (vlen_1 _ V1)). eapply Rle_trans; [exact S|]. clear S. unfold sum_sq_sin. induction rays as [|r l IH].
  - cbn. lra.
  - rewrite rsum_cons. change (length (r :: l)) with (Datatypes.S (length l)). rewrite S_INR.
    pose proof (line_dist2_le (mkV3 1 0 0) (ray_direction r)). lra.
Qed.

Section C104.
Variables (prec emax : Z) (Hp : Prec_gt_0 prec) (He : Prec_lt_emax prec emax).
Variables fsin fcos : binary_float prec emax -> binary_float prec emax.
Variables gsin gcos : f64 -> f64.
Local Notation F := (binary_float prec emax).
Local Hint Extern 0 (Ops (binary_float prec emax)) =>
  exact (B_ops prec emax Hp He fsin fcos) : typeclass_instances.
Local Hint Extern 0 (Ops (binary_float 53 1024)) => exact (f64_ops gsin gcos) : typeclass_instances.
Local Notation u := (bpow radix2 (- prec)).
Local Notation v := (bpow radix2 (- (53))).
Local Notation big := (bpow radix2 emax).

Lemma C104_lemma (E : Z) to64 from64 w M P f Z eps X (rays : list (Ray WorldFrame F)) truth svd eta kappa lam :
  (24 <= prec <= 53)%Z -> (emax <= 1024)%Z -> (0 <= E)%Z -> (2 * E + 34 <= emax)%Z ->
  exact_to64 to64 -> rounds_from64 from64 -> u <= w <= / 2048 ->
  1 <= M -> 1 <= P -> 512 * P * M < big -> 0 < f -> 5 * P <= M * f -> 1 <= Z -> 0 <= eps ->
  let n := INR (length rays) in
  n * (4 * M) <= bpow radix2 E -> n <= 2 ^ 40 -> (2 <= length rays)%nat ->
  Forall2 (fun r t => seen_persp w M P f Z eps X r t \/ seen_ortho w M P f Z eps X r t) rays truth -> spread lam truth ->
  0 <= eta -> 0 <= kappa <= 100 -> svd_near (2 * n) eta (kappa * v) svd ->
  let s := 3.5 * ((eps + 13.2 * w * P) / f) + 530 * w * M in
  let mu := lam - 2 * s * n in
  let eta' := eta + 3 * n * (25 * u + (n + 1) * v) in
  cutoff + eta' < mu ->
  let best := best_intersection_of_rays to64 from64 svd rays in
  best <> Some (Err SvdFailed) ->
  let e := (2600 * w * M + Z * s) * sqrt (n / mu) in
  exists x', best = Some (Ok (mkPoints [x'])) /\ vec_finite x' /\
    vdist (vreal x') X <= e + (eta' * (vlen X + e) + n * (4 * M) * ((110 * kappa + 700) * u + 6 * (n + 1) * v)) / (mu - eta').
Proof.
  intros P24 E1024 E0 E2 TX FR (UW & W11) M1 P1 PB F0 FM Z1 EP n NM N40 L2 SEEN SP Et0 K HS s mu eta' G best NF e.
  assert (U0 : 0 < u) by apply bpow_gt_0. assert (V0 : 0 < v) by apply bpow_gt_0.
  assert (N2 : 2 <= n) by (apply (le_INR 2); exact L2). pose proof cutoff_pos as CP.
  assert (If : 0 < / f) by now apply Rinv_0_lt_compat.
  assert (S0 : 0 <= s).
  { unfold s. apply Rplus_le_le_0_compat.
    - apply Rmult_le_pos; [lra|]. apply Rmult_le_pos; [|lra]. apply Rplus_le_le_0_compat; [exact EP|]. apply Rmult_le_pos; [|lra]. lra.
    - apply Rmult_le_pos; [lra|lra]. }
  assert (E'0 : 0 <= eta').
  { unfold eta'. apply Rplus_le_le_0_compat; [exact Et0|]. apply Rmult_le_pos; [lra|]. apply Rplus_le_le_0_compat; [lra|]. apply Rmult_le_pos; lra. }
  assert (LT : lam <= n).
  { unfold n. replace (length rays) with (length truth) by (clear -SEEN; induction SEEN; cbn; congruence). now apply spread_le'. }
  assert (S2 : s < 1 / 2).
  { apply Rmult_lt_reg_r with (2 * n); [lra|]. replace (s * (2 * n)) with (2 * s * n) by ring. unfold mu in G. lra. }
  assert (Facts : Forall2 (fun r t => ray_sized E (4 * M) r /\ vreal (ray_direction r) <> vO /\
      (exists z, vdist X (vadd (vreal (ray_center r)) (vscl z (vreal (ray_direction r)))) <= 2600 * w * M + Z * s) /\
      ray_direction t <> vO /\ exists z, vdist (vscl z (vreal (ray_direction r))) (ray_direction t) <= s * vlen (ray_direction t)) rays truth).
  { assert (B1 : bpow radix2 1 <= bpow radix2 E).
    { change (bpow radix2 1) with 2. eapply Rle_trans; [|exact NM]. nra. }
    assert (B2 : bpow radix2 (- E) <= 1 / 2).
    { rewrite bpow_opp. replace (1 / 2) with (/ bpow radix2 1) by (simpl; lra). apply Rinv_le_contravar; [apply bpow_gt_0|exact B1]. }
    eapply Forall2_impl'; [|exact SEEN]. intros r t Hs.
    destruct (seen_facts prec emax Hp He fsin fcos w UW W11 ltac:(lia) M P f Z eps X r t M1 P1 PB F0 FM Z1 EP S2 Hs) as (A1 & A2 & A3 & A4 & A5 & A6).
    split; [|split; [|split; [|split]]]; try assumption.
    - split; [exact A1|]. split; [exact A2|]. split; [lra|]. apply Rle_trans with (2.1 * M); [apply A3|]. nra.
    - intros Q. rewrite Q, vlen_O in A3. lra. }
  assert (RS : Forall (ray_sized E (4 * M)) rays).
  { clear -Facts. induction Facts as [|r t l l' H _ IH]; constructor; [apply H|exact IH]. }
  set (rr := map ray_real rays).
  assert (ND : nonzero_dirs rr).
  { unfold nonzero_dirs, rr. rewrite Forall_map. clear -Facts. induction Facts as [|r t l l' H _ IH]; constructor; [apply H|exact IH]. }
  assert (SPR : spread mu rr).
  { replace mu with (lam - 2 * s * INR (length rr)) by (unfold rr; rewrite map_length; reflexivity).
    apply tilt_spread with truth; [lra| |exact SP]. unfold rr. clear -Facts. induction Facts as [|r t l l' H _ IH]; constructor; [|exact IH].
    cbn [ray_real ray_direction]. split; [apply H|]. split; apply H. }
  assert (LR : length rr = length rays) by (unfold rr; apply map_length).
  destruct (passing_point rr X mu (2600 * w * M + Z * s)) as (x & MIN & DX).
  - now rewrite LR.
  - exact ND.
  - lra.
  - exact SPR.
  - apply Rplus_le_le_0_compat; [apply Rmult_le_pos; lra|apply Rmult_le_pos; lra].
  - unfold rr. rewrite Forall_map. clear -Facts. induction Facts as [|r t l l' H _ IH]; constructor; [|exact IH]. cbn [ray_real ray_direction ray_center]. apply H.
  - rewrite LR in DX. fold n e in DX.
    destruct (C91_lemma (C := WorldFrame) prec emax Hp He fsin fcos gsin gcos P24 E1024 E E0 E2 to64 from64 TX FR (4 * M) rays ltac:(lra) NM N40 L2 RS
      svd eta kappa mu x Et0 K HS G SPR MIN NF) as (x' & Q & FX & D).
    fold n eta' in D. exists x'. split; [exact Q|]. split; [exact FX|].
    eapply Rle_trans; [apply vdist_triangle with (b := x)|].
    assert (LX : vlen x <= vlen X + e) by (pose proof (vdist_len x X); lra).
    assert (D' : vdist (vreal x') x <= (eta' * (vlen X + e) + n * (4 * M) * ((110 * kappa + 700) * u + 6 * (n + 1) * v)) / (mu - eta')).
    { eapply Rle_trans; [exact D|]. apply Rmult_le_compat_r; [left; apply Rinv_0_lt_compat; lra|]. apply Rplus_le_compat_r.
      apply Rmult_le_compat_l; [exact E'0|exact LX]. }
    lra.
Qed.
End C104.
