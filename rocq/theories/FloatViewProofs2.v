(** * FloatViewProofs2.v - rounding errors of the reported directions and of looking at a target (C97-C99) *)

From Coq Require Import ZArith Reals List Bool Lra Lia Psatz.
From Flocq Require Import Core BinarySingleNaN.
From Verif Require Import Scalar Linalg Bundles Extrinsics Perspective Orthographic Camera Rows Spec SpecFloatErr RealBase VecLemmas PiProofs ExtrinsicsProofs FloatBase FloatRound FloatErrProofs FloatErrProofs2 FloatApprox FloatDirProofs FloatRigidProofs FloatWorldProofs FromViewProofs FloatViewProofs.
Import ListNotations.
Local Open Scope R_scope.

Section Look.
Variables (prec emax : Z) (Hp : Prec_gt_0 prec) (He : Prec_lt_emax prec emax).
Variables fsin fcos : binary_float prec emax -> binary_float prec emax.
Local Notation F := (binary_float prec emax).
Local Hint Extern 0 (Ops (binary_float prec emax)) =>
  exact (B_ops prec emax Hp He fsin fcos) : typeclass_instances.
Local Notation u := (bpow radix2 (- prec)).
Local Notation big := (bpow radix2 emax).
Local Notation tiny := (bpow radix2 (2 - emax)).
Local Notation flr := (fl prec emax).
Hypotheses (P14 : (14 <= prec)%Z) (E17 : (17 <= emax)%Z).

Lemma lookdir_near (w : R) (qh : Quat F) q c M (e : V3 F) : u <= w -> 150000 * w * M <= 1 ->
  unit_quat q -> quat_near (8 * w) qh q -> vec_sized M c -> 1 <= M -> 512 * M < big ->
  vec_sized 1 e -> vlen (vreal e) = 1 ->
  vec_near (2600 * w * M) (lookdir (from_rotation_and_camcenter qh c) e) (mv (mtr (rotm q)) (vreal e)).
Proof.
  intros UW WM U N C M1 MB Se Le. pose proof (u0 prec) as U0. pose proof (u14 prec P14) as U1.
  assert (W0 : 0 < w) by lra. assert (W11 : w <= / 2048) by nra. pose proof (big64 emax E17) as BB.
  pose proof (tiny_le_1 emax E17) as T1. assert (wM : w <= w * M) by nra.
  pose proof (c2w_exact prec emax Hp He fsin fcos w UW W11 E17 qh q c M U N C M1 MB e (vec_sized_weak prec emax 1 M e Se M1)) as T.
  unfold lookdir. cbv zeta. change (camcenter (from_rotation_and_camcenter qh c)) with c.
  set (t := iso_transform_point _ e) in *. unfold to_world in T. set (d := mv (mtr (rotm q)) (vreal e)) in *.
  assert (OR : orthogonal (mtr (rotm q))) by now apply orthogonal_mtr, rotm_orthogonal.
  assert (Ld : vlen d = 1).
  { rewrite <- Le. now apply orthogonal_len. }
  destruct (comp_le d) as (dx & dy & dz). rewrite Ld in dx, dy, dz.
  destruct C as ((Cx & _) & (Cy & _) & (Cz & _)). apply fl_finite in Cx, Cy, Cz.
  assert (G : forall (x y : F) b, near (1461 * w * M) x (b + B2R y) -> flr y (B2R y) -> Rabs b <= 1 -> near (1462.1 * (w * M)) (o_sub x y) b).
  { intros x y b (X & DX) Y B. assert (DX' : Rabs (B2R x - B2R y - b) <= 1461 * (w * M)) by (replace (B2R x - B2R y - b) with (B2R x - (b + B2R y)) by ring; lra).
    destruct (sub_err prec emax Hp He fsin fcos x y _ _ 1.01 (fl_finite prec emax x X) Y) as (r & (R & <-) & DR & _); [lra| |nra|].
    - replace (B2R x - B2R y) with ((B2R x - B2R y - b) + b) by ring. eapply Rle_trans; [apply tri; eassumption|]. lra.
    - split; [exact R|]. replace (B2R (o_sub x y) - b) with ((B2R (o_sub x y) - (B2R x - B2R y)) + (B2R x - B2R y - b)) by ring.
      eapply Rle_trans; [apply tri; eassumption|]. lra. }
  destruct T as (Tx & Ty & Tz). unfold vadd, vreal in Tx, Ty, Tz. cbn [vx vy vz] in Tx, Ty, Tz.
  assert (Nx := G _ _ _ Tx Cx dx). assert (Ny := G _ _ _ Ty Cy dy). assert (Nz := G _ _ _ Tz Cz dz).
  assert (V : vnear prec emax (2533 * (w * M) * vlen d) (v3_sub t c) d).
  { split; [repeat split; [apply Nx|apply Ny|apply Nz]|]. rewrite Ld, Rmult_1_r.
    eapply Rle_trans; [apply comps_dist; [apply Nx|apply Ny|apply Nz]|]. nra. }
  assert (dO : d <> vO) by (intros ED; rewrite ED, vlen_O in Ld; lra).
  assert (Hd : vdot d d = 1) by (rewrite <- vlen_sq, Ld; ring).
  assert (QN : vnear prec emax (2600 * w * M) (v3_normalize (v3_sub t c)) d).
  { rewrite <- (vunit_id d Hd).
    eapply vnear_weak; [apply (normalize_vnear prec emax Hp He fsin fcos P14 (v3_sub t c) d (2533 * (w * M)) 1); try lia; try assumption; rewrite ?Ld|nra].
    - split; nra.
    - simpl; lra.
    - simpl; lra. }
  apply vnear_comps in QN. exact QN.
Qed.

(** the unit vectors of the camera frame *)
Lemma axes_near (w : R) (qh : Quat F) q c M : u <= w -> 150000 * w * M <= 1 ->
  unit_quat q -> quat_near (8 * w) qh q -> vec_sized M c -> 1 <= M -> 512 * M < big ->
  let e := from_rotation_and_camcenter qh c in
  vec_near (2600 * w * M) (forward e) (mv (mtr (rotm q)) (mkV3 0 0 1)) /\
  vec_near (2600 * w * M) (right e) (mv (mtr (rotm q)) (mkV3 1 0 0)) /\
  vec_near (2600 * w * M) (up e) (mv (mtr (rotm q)) (mkV3 0 (-1) 0)).
Proof.
  intros UW WM U N C M1 MB e. 
  destruct (fl_one prec emax Hp He fsin fcos) as (F1 & V1). destruct (fl_zero prec emax Hp He fsin fcos) as (F0 & V0).
  destruct (fl_neg prec emax Hp He fsin fcos _ _ (fl_one prec emax Hp He fsin fcos)) as (Fm & Vm).
  assert (S1 : sized 0 1 (o_one : F)) by (split; [exact F1|rewrite V1, Rabs_R1; lra]).
  assert (S0 : sized 0 1 (o_zero : F)) by (split; [exact F0|rewrite V0, Rabs_R0; lra]).
  assert (Sm : sized 0 1 (o_neg o_one : F)) by (split; [exact Fm|rewrite Vm, Rabs_Ropp, Rabs_R1; lra]).
  assert (G : forall v : V3 F, vec_sized 1 v -> vlen (vreal v) = 1 -> vec_near (2600 * w * M) (lookdir e v) (mv (mtr (rotm q)) (vreal v))).
  { intros v Sv Lv. now apply lookdir_near. }
  assert (EZ : vreal (mkV3 o_zero o_zero o_one : V3 F) = mkV3 0 0 1) by (unfold vreal; cbn [vx vy vz]; now rewrite V0, V1).
  assert (EX : vreal (mkV3 o_one o_zero o_zero : V3 F) = mkV3 1 0 0) by (unfold vreal; cbn [vx vy vz]; now rewrite V0, V1).
  assert (EY : vreal (mkV3 o_zero (o_neg o_one) o_zero : V3 F) = mkV3 0 (-1) 0) by (unfold vreal; cbn [vx vy vz]; rewrite V0, Vm; reflexivity).
  assert (L : forall v, vdot v v = 1 -> vlen v = 1) by (intros v H; unfold vlen; rewrite H; apply sqrt_1).
  split; [|split].
  - rewrite <- EZ. apply G; [now split; [|split]|]. rewrite EZ. apply L. unfold vdot; cbn; ring.
  - rewrite <- EX. apply G; [now split; [|split]|]. rewrite EX. apply L. unfold vdot; cbn; ring.
  - rewrite <- EY. apply G; [now split; [|split]|]. rewrite EY. apply L. unfold vdot; cbn; ring.
Qed.

(** ** Looking at a target *)
Section V.
Variables (E : Z) (s : R) (c l v : V3 F).
Hypotheses (E1 : (1 <= E)%Z) (E2 : (2 * E + 4 <= emax)%Z) (S0 : 0 < s <= 1) (SU : 16384 * u <= s) (SE : bpow radix2 (- E) <= 0.98 * s)
  (Fc : vec_finite c) (Fl : vec_finite l) (Fv : vec_finite v).
Local Notation dir := (vsub (vreal l) (vreal c)).
Hypotheses (LO : bpow radix2 (- E) <= 0.98 * vlen dir) (HI : 1.02 * vlen dir <= bpow radix2 E)
  (LU : vlen (vreal v) <= 1.01) (SV : s <= vlen (vcross (vreal v) (vunit dir)))
  (SN : near (2 * u) (fsin (o_div o_pi64 o_two)) 1) (CS : near (2 * u) (fcos (o_div o_pi64 o_two)) 0).
Lemma us_le : u <= u / s.
Proof. pose proof (u0 prec). unfold Rdiv. rewrite <- (Rmult_1_r u) at 1. apply Rmult_le_compat_l; [lra|]. rewrite <- Rinv_1 at 1. apply Rinv_le; lra. Qed.
Lemma C97_lemma : exists qh q, from_view c l v = from_rotation_and_camcenter qh c /\ unit_quat q /\ quat_near (1000 * (u / s)) qh q /\
    mv (mtr (rotm q)) (mkV3 0 0 1) = vunit dir /\
    mv (mtr (rotm q)) (mkV3 1 0 0) = vunit (vcross dir (vreal v)) /\
    mv (mtr (rotm q)) (mkV3 0 (-1) 0) = vunit (vsub (vreal v) (vscl (vdot (vreal v) (vunit dir)) (vunit dir))).
Proof.
  pose proof us_le as US. pose proof (u0 prec) as U0.
  apply (from_view_near prec emax Hp He fsin fcos P14 E17 E s (u / s)); try assumption; try apply S0.
  - right. field. lra.
  - apply Rmult_le_reg_r with s; [apply S0|]. replace (u / s * s) with u by (field; lra). lra.
Qed.
Local Notation W := (125 * (u / s)).
Lemma C98b_lemma M : vec_sized M c -> 1 <= M -> 512 * M < big -> 18750000 * (u / s) * M <= 1 ->
  let e := from_view c l v in
  vec_near (325000 * (u / s) * M) (forward e) (vunit dir) /\
  vec_near (325000 * (u / s) * M) (right e) (vunit (vcross dir (vreal v))) /\
  vec_near (325000 * (u / s) * M) (up e) (vunit (vsub (vreal v) (vscl (vdot (vreal v) (vunit dir)) (vunit dir)))).
Proof.
  intros C M1 MB WM e. pose proof us_le as US. pose proof (u0 prec) as U0.
  destruct C97_lemma as (qh & q & EQ & U & N & EZ & EX & EY). unfold e. rewrite EQ.
  replace (1000 * (u / s)) with (8 * W) in N by ring.
  destruct (axes_near W qh q c M ltac:(lra) ltac:(lra) U N C M1 MB) as (A & B & D). cbv zeta in A, B, D. rewrite EZ in A. rewrite EX in B. rewrite EY in D.
  replace (325000 * (u / s) * M) with (2600 * W * M) by ring. repeat (split; [assumption|]). assumption.
Qed.
Lemma C99_lemma M P : vec_sized M c -> vec_sized M l -> 1 <= M -> 512 * M < big -> 1 <= P -> 512 * P * M < big ->
  (forall k : PerspectiveParams F, persp_sized P k -> 5000000 * (u / s) * M <= vlen dir -> 256000 * (u / s) <= 1 ->
     exists p, world_to_pixel (camera_new (perspective_from k) (from_view c l v)) (mkPoints [l]) = Some (mkPixels [p]) /\
       pix_near (325000 * (u / s) * P * (M / vlen dir)) p (mkV2 (B2R (pp_cx k)) (B2R (pp_cy k)))) /\
  (forall k : OrthographicParams F, ortho_sized P k -> 256000 * (u / s) <= 1 ->
     exists p, world_to_pixel (camera_new (orthographic_from k) (from_view c l v)) (mkPoints [l]) = Some (mkPixels [p]) /\
       pix_near (100000 * (u / s) * P * M) p (mkV2 (B2R (op_cx k)) (B2R (op_cy k)))).
Proof.
  intros C SL M1 MB P1 PB. pose proof us_le as US. pose proof (u0 prec) as U0.
  destruct C97_lemma as (qh & q & EQ & U & N & EZ & EX & EY). rewrite EQ.
  replace (1000 * (u / s)) with (8 * W) in N by ring.
  assert (LD : 0 < vlen dir) by (pose proof (bpow_gt_0 radix2 (- E)); lra).
  assert (DO : dir <> vO) by (intros ED; rewrite ED, vlen_O in LD; lra).
  assert (T : to_camera q (vreal c) (vreal l) = mkV3 0 0 (vlen dir)).
  { unfold to_camera. rewrite <- (vunit_scale dir DO) at 1. rewrite <- EZ, <- mv_vscl.
    rewrite orthogonal_inv_r by now apply rotm_orthogonal. vring. }
  split.
  - intros k K D1 S1.
    destruct (proj1 (C70_lemma prec emax Hp He fsin fcos W ltac:(lra) ltac:(lra) E17 qh q c M U N C M1 MB P [l] P1 PB
      (Forall_cons _ SL (Forall_nil _))) k K (vlen dir) LD ltac:(lra)) as (out & EO & FO).
    + constructor; [|constructor]. rewrite T. split; [cbn [vz]; lra|]. unfold pinhole. cbn [vx vy vz].
      destruct K as (_ & _ & _ & (_ & _ & KX) & (_ & _ & KY)).
      replace ((B2R (pp_fx k) * 0 + B2R (pp_skew k) * 0) / vlen dir + B2R (pp_cx k)) with (B2R (pp_cx k)) by (field; lra).
      replace (B2R (pp_fy k) * 0 / vlen dir + B2R (pp_cy k)) with (B2R (pp_cy k)) by (field; lra). split; assumption.
    + inversion FO as [|? p ? ? NP F']; subst. inversion F'; subst. exists p. split; [exact EO|]. rewrite T in NP.
      unfold pinhole in NP. cbn [vx vy vz] in NP.
      replace ((B2R (pp_fx k) * 0 + B2R (pp_skew k) * 0) / vlen dir + B2R (pp_cx k)) with (B2R (pp_cx k)) in NP by (field; lra).
      replace (B2R (pp_fy k) * 0 / vlen dir + B2R (pp_cy k)) with (B2R (pp_cy k)) in NP by (field; lra).
      replace (325000 * (u / s) * P * (M / vlen dir)) with (2600 * W * P * (M / vlen dir)) by ring. exact NP.
  - intros k K S1.
    destruct (proj2 (C70_lemma prec emax Hp He fsin fcos W ltac:(lra) ltac:(lra) E17 qh q c M U N C M1 MB P [l] P1 PB
      (Forall_cons _ SL (Forall_nil _))) k K) as (out & EO & FO).
    inversion FO as [|? p ? ? NP F']; subst. inversion F'; subst. exists p. split; [exact EO|]. rewrite T in NP.
    unfold parallel_pixel in NP. cbn [vx vy vz] in NP. rewrite !Rmult_0_r, !Rplus_0_l in NP.
    replace (100000 * (u / s) * P * M) with (800 * W * P * M) by ring. exact NP.
Qed.
End V.
End Look.

(** ** Double precision *)
Section F64.
Variables fsin fcos : f64 -> f64.
Local Hint Extern 0 (Ops f64) => exact (f64_ops fsin fcos) : typeclass_instances.
Local Hint Extern 0 (Ops (binary_float 53 1024)) => exact (f64_ops fsin fcos) : typeclass_instances.
Local Notation u := (bpow radix2 (- (53))).
Local Notation h := (@o_div f64 (f64_ops fsin fcos) o_pi64 o_two).
Lemma half_pi_val : is_finite h = true /\ B2R h = o_pi64 / 2.
Proof. split; [reflexivity|]. unfold o_pi64 at 2. cbv -[IZR Rdiv Rinv Rmult Rplus Ropp]. lra. Qed.
Lemma half_pi_near : near u (fsin h) (sin (B2R h)) -> near u (fcos h) (cos (B2R h)) -> near (2 * u) (fsin h) 1 /\ near (2 * u) (fcos h) 0.
Proof.
  change u with (/ 9007199254740992). destruct half_pi_val as (_ & V). rewrite V. generalize (fsin h) (fcos h). clear V. intros x y (X & DX) (Y & DY).
  destruct pi64_error as (P1 & P2). set (d := (PI - o_pi64) / 2).
  assert (D0 : 0 < d <= 6.5 / 100000000000000000) by (unfold d; lra).
  assert (C : cos (o_pi64 / 2) = sin d). { rewrite <- cos_shift. f_equal. unfold d. field. }
  assert (S : sin (o_pi64 / 2) = cos d). { rewrite <- sin_shift. f_equal. unfold d. field. }
  assert (SD : 0 <= sin d <= d).
  { split; [apply sin_ge_0; pose proof PI_RGT_0; pose proof PI2_1; lra|left; now apply sin_lt_x]. }
  assert (CD : 1 - d <= cos d <= 1).
  { split; [|apply COS_bound]. pose proof (sin2_cos2 d) as SC. unfold Rsqr in SC. assert (0 <= cos d) by (apply cos_ge_0; pose proof PI2_1; lra). nra. }
  rewrite S in DX. rewrite C in DY. apply Rabs_le_inv in DX. apply Rabs_le_inv in DY.
  split; (split; [assumption|apply Rabs_le]); lra.
Qed.

Variables c l v : V3 f64.
Local Notation dir := (vsub (vreal l) (vreal c)).
Hypotheses (SC : vec_sized 1000 c) (SL : vec_sized 1000 l) (SV : vec_finite v) (LV : vlen (vreal v) <= 1.01)
  (D1 : 1 <= vlen dir) (AV : / 10 <= vlen (vcross (vreal v) (vunit dir)))
  (SN : near u (fsin h) (sin (B2R h))) (CS : near u (fcos h) (cos (B2R h))).
Lemma sized_finite M (w : V3 f64) : vec_sized M w -> vec_finite w.
Proof. intros ((A & _) & (B & _) & (C & _)). now split; [|split]. Qed.
Lemma dir_le : 1.02 * vlen dir <= bpow radix2 12.
Proof.
  destruct SC as ((_ & _ & a1) & (_ & _ & a2) & (_ & _ & a3)). destruct SL as ((_ & _ & b1) & (_ & _ & b2) & (_ & _ & b3)).
  assert (H : vdist (vreal l) (vreal c) <= 1.7321 * 2000).
  { apply comps_dist; unfold vreal; cbn [vx vy vz]; (eapply Rle_trans; [apply Rabs_triang|]; rewrite Rabs_Ropp; lra). }
  unfold vdist in H. replace (bpow radix2 12) with 4096 by (simpl; lra). lra.
Qed.
Lemma us_val : u / / 10 = 10 / 9007199254740992. Proof. change u with (/ 9007199254740992). field. Qed.
Local Notation HH := (half_pi_near SN CS).
Lemma b12 : bpow radix2 (-12) <= 0.98 * / 10 /\ bpow radix2 (-12) <= 0.98 * 1.
Proof. simpl. lra. Qed.
Lemma dir_ge : bpow radix2 (-12) <= 0.98 * vlen dir.
Proof. destruct b12 as (_ & H). lra. Qed.
Lemma C97b_lemma : exists qh q, from_view c l v = from_rotation_and_camcenter qh c /\ unit_quat q /\ quat_near (2 / 1000000000000) qh q /\
    mv (mtr (rotm q)) (mkV3 0 0 1) = vunit dir /\
    mv (mtr (rotm q)) (mkV3 1 0 0) = vunit (vcross dir (vreal v)) /\
    mv (mtr (rotm q)) (mkV3 0 (-1) 0) = vunit (vsub (vreal v) (vscl (vdot (vreal v) (vunit dir)) (vunit dir))).
Proof.
  pose proof dir_le as DL. assert (UV : u = / 9007199254740992) by reflexivity. destruct HH as (H1 & H2).
  destruct (C97_lemma 53 1024 f64_prec f64_emax fsin fcos ltac:(lia) ltac:(lia) 12 (/ 10) c l v ltac:(lia) ltac:(lia) ltac:(lra) ltac:(lra)
    (proj1 b12) (sized_finite _ _ SC) (sized_finite _ _ SL) SV dir_ge DL LV AV H1 H2) as (qh & q & A & B & (n1 & n2 & n3 & n4) & D).
  exists qh, q. split; [exact A|]. split; [exact B|]. split; [|exact D]. rewrite us_val in *.
  split; [|split; [|split]]; eapply near_weak; try eassumption; lra.
Qed.
Lemma C98c_lemma : let e := from_view c l v in
  vec_near (4 / 10000000) (forward e) (vunit dir) /\
  vec_near (4 / 10000000) (right e) (vunit (vcross dir (vreal v))) /\
  vec_near (4 / 10000000) (up e) (vunit (vsub (vreal v) (vscl (vdot (vreal v) (vunit dir)) (vunit dir)))).
Proof.
  pose proof dir_le as DL. assert (UV : u = / 9007199254740992) by reflexivity. destruct HH as (H1 & H2).
  assert (B : 512 * 1000 < bpow radix2 1024) by (apply big_f64; lra).
  destruct (C98b_lemma 53 1024 f64_prec f64_emax fsin fcos ltac:(lia) ltac:(lia) 12 (/ 10) c l v ltac:(lia) ltac:(lia) ltac:(lra) ltac:(lra)
    (proj1 b12) (sized_finite _ _ SC) (sized_finite _ _ SL) SV dir_ge DL LV AV H1 H2 1000 SC ltac:(lra) B ltac:(rewrite us_val; lra)) as (n1 & n2 & n3).
  assert (EE : 325000 * (u / / 10) * 1000 <= 4 / 10000000) by (rewrite us_val; lra).
  split; [exact (vec_near_weak _ _ _ _ _ _ n1 EE)|]. split; [exact (vec_near_weak _ _ _ _ _ _ n2 EE)|exact (vec_near_weak _ _ _ _ _ _ n3 EE)].
Qed.
Lemma C99b_lemma (k : PerspectiveParams f64) : persp_sized 10000 k ->
  exists p, world_to_pixel (camera_new (perspective_from k) (from_view c l v)) (mkPoints [l]) = Some (mkPixels [p]) /\
    pix_near (4 / 1000) p (mkV2 (B2R (pp_cx k)) (B2R (pp_cy k))).
Proof.
  intros K. pose proof dir_le as DL. assert (UV : u = / 9007199254740992) by reflexivity. destruct HH as (H1 & H2).
  assert (B : 512 * 1000 < bpow radix2 1024) by (apply big_f64; lra).
  assert (B' : 512 * 10000 * 1000 < bpow radix2 1024) by (apply big_f64; lra).
  destruct (proj1 (C99_lemma 53 1024 f64_prec f64_emax fsin fcos ltac:(lia) ltac:(lia) 12 (/ 10) c l v ltac:(lia) ltac:(lia) ltac:(lra) ltac:(lra)
    (proj1 b12) (sized_finite _ _ SC) (sized_finite _ _ SL) SV dir_ge DL LV AV H1 H2 1000 10000 SC SL ltac:(lra) B ltac:(lra) B') k K
    ltac:(rewrite us_val; lra) ltac:(rewrite us_val; lra)) as (p & E & N).
  exists p. split; [exact E|]. eapply pix_near_weak; [exact N|]. rewrite us_val.
  assert (M : 1000 / vlen dir <= 1000).
  { unfold Rdiv. rewrite <- (Rmult_1_r 1000) at 2. apply Rmult_le_compat_l; [lra|]. rewrite <- Rinv_1. apply Rinv_le; lra. }
  lra.
Qed.
End F64.
