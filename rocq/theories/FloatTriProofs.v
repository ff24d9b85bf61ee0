(** * FloatTriProofs.v - rays of pixels in IEEE arithmetic (C102, C103) *)

From Coq Require Import ZArith Reals List Bool Lra Lia Psatz.
From Flocq Require Import Core BinarySingleNaN.
From Verif Require Import Scalar Linalg Bundles Extrinsics Perspective Orthographic Camera Rows Spec SpecGeom SpecIsect SpecTri SpecFloatErr SpecFloatTri RealBase VecLemmas ExtrinsicsProofs IsectProofs TriProofs FloatBase FloatRound FloatErrProofs FloatErrProofs2 FloatApprox FloatRigidProofs FloatProjProofs FloatDirProofs FloatIsectProofs4 FloatViewProofs FloatWorldProofs.
Import ListNotations.
Local Open Scope R_scope.

(** ** Lines close to each other *)
Lemma near_line X c d z t : d <> vO -> vdist X (vadd c (vscl z d)) <= t -> line_dist2 X c d <= t * t.
Proof.
  intros D H. eapply Rle_trans; [apply (proj1 (C39b_lemma X c d D) z)|]. rewrite <- vlen_sq.
  unfold vdist in H. pose proof (vlen_nonneg (vsub X (vadd c (vscl z d)))). apply Rmult_le_compat; assumption.
Qed.
Lemma vdist_split X cr ch w : vdist X (vadd ch w) <= vdist cr ch + vdist w (vsub X cr).
Proof.
  rewrite (vdist_sym w). unfold vdist. replace (vsub X (vadd ch w)) with (vadd (vsub cr ch) (vsub (vsub X cr) w)) by vring. apply vlen_triangle.
Qed.
Lemma vdist_split2 a e b d z : vdist (vadd a (vscl z e)) (vadd b (vscl z d)) <= vdist b a + Rabs z * vdist d e.
Proof.
  rewrite (vdist_sym b), (vdist_sym d). unfold vdist. replace (vsub (vadd a (vscl z e)) (vadd b (vscl z d))) with (vadd (vsub a b) (vscl z (vsub e d))) by vring.
  rewrite <- vlen_vscl. apply vlen_triangle.
Qed.
Lemma shift_cancel a w b c : vsub (vadd a w) b = vsub (vadd (vadd a c) w) (vadd b c).
Proof. vring. Qed.
Lemma sin_sym a b : a <> vO -> b <> vO -> line_dist2 a vO b * vdot b b = line_dist2 b vO a * vdot a a.
Proof.
  intros A B. pose proof (vdot_self_pos a A). pose proof (vdot_self_pos b B). unfold line_dist2. rewrite !vsub_0_r.
  rewrite (lagrange a b), (lagrange b a), (vdot_comm b a). field. lra.
Qed.
(** [d] is within [s |D|] of the line along [D]: any [v] is about as far from one line as from the other *)
Lemma line_tilt v d D z s : d <> vO -> D <> vO -> 0 <= s < 1 -> vdist (vscl z d) D <= s * vlen D -> vlen v = 1 ->
  line_dist2 v vO D - 2 * s <= line_dist2 v vO d.
Proof.
  intros Dd DD S H V. pose proof (vdot_self_pos d Dd) as Pd. pose proof (vdot_self_pos D DD) as PD.
  pose proof (vlen_pos d Dd) as Ld. pose proof (vlen_pos D DD) as LD.
  pose (a := vdot v d / vdot d d). set (w := vsub v (vscl a d)).
  assert (Wd : vdot w d = 0) by (unfold w; rewrite vdot_vsub_l, vdot_vscl_l; unfold a; field; lra).
  assert (W2 : line_dist2 v vO d = vdot w w).
  { unfold line_dist2. rewrite vsub_0_r, lagrange. unfold w. rewrite !vdot_vsub_l, !vdot_vsub_r, !vdot_vscl_l, !vdot_vscl_r, (vdot_comm d v). unfold a. field. lra. }
  assert (V2 : vdot v v = vdot w w + vdot (vscl a d) (vscl a d)).
  { replace v with (vadd w (vscl a d)) at 1 2 by (unfold w; vring). rewrite !vdot_vadd_l, !vdot_vadd_r, !vdot_vscl_l, !vdot_vscl_r, (vdot_comm d w), Wd. ring. }
  assert (A1 : Rabs a * vlen d <= 1).
  { rewrite <- vlen_vscl, <- V. apply Rsqr_incr_0_var; [|apply vlen_nonneg]. unfold Rsqr. rewrite !vlen_sq. pose proof (vdot_self_nonneg w). lra. }
  (* how far d is from the line along D *)
  assert (L1 : line_dist2 D vO d <= s * vlen D * (s * vlen D)).
  { apply near_line with z; [exact Dd|]. rewrite vadd_0_l, vdist_sym. exact H. }
  assert (L2 : line_dist2 d vO D <= s * vlen d * (s * vlen d)).
  { apply Rmult_le_reg_r with (vdot D D); [exact PD|]. rewrite sin_sym by assumption.
    replace (s * vlen d * (s * vlen d) * vdot D D) with (s * vlen D * (s * vlen D) * vdot d d).
    - apply Rmult_le_compat_r; [lra|exact L1].
    - rewrite <- (vlen_sq D), <- (vlen_sq d). ring. }
  destruct (proj2 (C39b_lemma d vO D DD)) as (t & Ht). rewrite vadd_0_l in Ht.
  set (g := vsub d (vscl t D)) in *.
  assert (G : vlen g <= s * vlen d).
  { apply Rsqr_incr_0_var; [|apply Rmult_le_pos; lra]. unfold Rsqr. rewrite vlen_sq. lra. }
  pose proof (proj1 (C39b_lemma v vO D DD) (a * t)) as L3. rewrite vadd_0_l in L3.
  assert (E : vsub v (vscl (a * t) D) = vadd w (vscl a g)) by (unfold w, g; vring).
  rewrite E, <- vlen_sq in L3. pose proof (vlen_triangle w (vscl a g)) as T. rewrite vlen_vscl in T.
  assert (G2 : Rabs a * vlen g <= s).
  { apply Rle_trans with (Rabs a * (s * vlen d)); [apply Rmult_le_compat_l; [apply Rabs_pos|exact G]|].
    replace (Rabs a * (s * vlen d)) with (s * (Rabs a * vlen d)) by ring. nra. }
  rewrite W2. rewrite <- (vlen_sq w). set (b := vlen w) in *. assert (B0 : 0 <= b) by apply vlen_nonneg.
  set (m := vlen (vadd w (vscl a g))) in *. assert (M0 : 0 <= m) by apply vlen_nonneg.
  assert (B1 : b <= 1).
  { apply Rsqr_incr_0_var; [|lra]. unfold Rsqr, b. rewrite vlen_sq. rewrite <- (vlen_sq v), V in V2. pose proof (vdot_self_nonneg (vscl a d)). lra. }
  (* dist <= min (1, b + s) *)
  assert (D1 : line_dist2 v vO D <= 1).
  { pose proof (proj1 (C39b_lemma v vO D DD) 0) as Q. rewrite vadd_0_l, vscl_0, vsub_0_r, <- vlen_sq, V in Q. lra. }
  set (e := line_dist2 v vO D) in *.
  assert (D2 : e <= (b + s) * (b + s)) by (eapply Rle_trans; [exact L3|]; apply Rmult_le_compat; lra).
  destruct (Rle_or_lt (b + s) 1) as [Q|Q].
  - assert ((b + s) * (b + s) - b * b <= 2 * s) by nra. lra.
  - assert (1 - s <= b) by lra. assert (1 - 2 * s <= b * b) by nra. lra.
Qed.

Section Rays.
Variables (prec emax : Z) (Hp : Prec_gt_0 prec) (He : Prec_lt_emax prec emax).
Variables fsin fcos : binary_float prec emax -> binary_float prec emax.
Local Notation F := (binary_float prec emax).
Local Hint Extern 0 (Ops (binary_float prec emax)) =>
  exact (B_ops prec emax Hp He fsin fcos) : typeclass_instances.
Variable u : R.
Local Notation big := (bpow radix2 emax).
Hypotheses (UR : bpow radix2 (- prec) <= u) (U11 : u <= / 2048) (E17 : (17 <= emax)%Z).
Local Notation u_pos := (ud_pos prec u UR).

Section Cam.
Variables (qh : Quat F) (q : Quat R) (c : V3 F) (M : R).
Hypotheses (U : unit_quat q) (N : quat_near (8 * u) qh q) (C : vec_sized M c) (M1 : 1 <= M) (MB : 512 * M < big).
Local Notation E := (from_rotation_and_camcenter qh c).
Local Notation c2w := (iso_transform_point (c_pose_inv (e_cache E))).
Local Notation c2wv := (iso_transform_vector (c_pose_inv (e_cache E))).
Local Notation c2w_exact := (c2w_exact prec emax Hp He fsin fcos u UR U11 E17 qh q c M U N C M1 MB).
Local Notation uM := (uM prec u UR U11 M M1).
Local Notation uM' := (uM' prec u UR U11 M M1).

Lemma center_near : vec_near (1461 * u * M) (c2w v3_zero) (vreal c).
Proof.
  pose proof (c2w_exact _ (vec_zero_sized prec emax Hp He fsin fcos M M1)) as Z.
  rewrite (vreal_zero prec emax Hp He fsin fcos), to_world_O in Z. exact Z.
Qed.
Lemma dir_near W y : vec_sized W y -> 1 <= W -> 64 * W < big -> vec_near (302 * u * W) (c2wv y) (mv (mtr (rotm q)) (vreal y)).
Proof.
  intros Y W1 WB. unfold iso_transform_vector. cbn [from_rotation_and_camcenter e_cache c_pose_inv iso_inverse iso_rot iso_trans].
  rewrite <- rotm_inverse. replace (302 * u * W) with (302 * u * W + 2 * 0) by ring.
  apply (rot_near2 prec emax Hp He fsin fcos u UR U11 E17); [now apply unit_quat_inverse|now apply quat_near_inverse|exact Y|exact W1|exact WB|].
  destruct Y as ((Y1 & _) & (Y2 & _) & (Y3 & _)). split; [|split]; (split; [assumption|]); cbn; rewrite Rminus_eq_0, Rabs_R0; lra.
Qed.

Lemma vec_near_dist e (v : V3 F) w : vec_near e v w -> vdist (vreal v) w <= 1.75 * e.
Proof.
  intros ((_ & A) & (_ & B) & (_ & D)). apply vlen_bound; [|exact A|exact B|exact D].
  eapply Rle_trans; [apply Rabs_pos|exact A].
Qed.
Lemma near_le e1 e2 (x : F) a b : near e1 x a -> near e2 x b -> Rabs (a - b) <= e1 + e2.
Proof.
  intros (_ & A) (_ & B). replace (a - b) with (- (B2R x - a) + (B2R x - b)) by ring. apply tri; [rewrite Rabs_Ropp|]; assumption.
Qed.

(** *** Perspective *)
Section Persp.
Variables (k : PerspectiveParams F) (P : R).
Hypotheses (K : persp_sized P k) (SK : sized 0 (Rabs (B2R (pp_fy k))) (pp_skew k)) (P1 : 1 <= P)
  (FX : 5 * P <= M * Rabs (B2R (pp_fx k))) (FY : 5 * P <= M * Rabs (B2R (pp_fy k))) (PB : 512 * P < big).
Lemma persp_row_near p : sized 0 P (px p) -> sized 0 P (py p) -> exists y,
  vz y = 1 /\ vle M y /\ pix_near (13.2 * u * P) p (pinhole k y) /\
  vec_near (302 * u * M) (c2wv (persp_unproject_row k p)) (mv (mtr (rotm q)) y).
Proof.
  intros PX PY.
  destruct (unproject_near prec emax Hp He fsin fcos u UR U11 E17 k P M K SK P1 FX FY MB PB p PX PY) as (Y & Z & Q).
  exists (vreal (persp_unproject_row k p)). split; [exact Z|]. split; [now apply vec_sized_vle|].
  split; [now replace (13.2 * u * P) with (13.2 * (u * P)) by ring|]. apply dir_near; [exact Y|exact M1|lra].
Qed.
Lemma persp_ray_eq p : persp_ray k qh c p = Some (mkRay (c2w v3_zero) (c2wv (persp_unproject_row k p))).
Proof. unfold persp_ray, camera_new. rewrite persp_pixel_to_world_rows. reflexivity. Qed.

Lemma pinhole_back y t f e : vz y = 1 -> vz t <> 0 -> 0 < f -> f <= Rabs (B2R (pp_fx k)) -> f <= Rabs (B2R (pp_fy k)) ->
  Rabs (px (pinhole k y) - px (pinhole k t)) <= e -> Rabs (py (pinhole k y) - py (pinhole k t)) <= e ->
  vdist y (vscl (/ vz t) t) <= 1.75 * (2 * (e / f)).
Proof.
  intros Y1 Z F0 GX GY EX EY. unfold pinhole in EX, EY. cbn [px py] in EX, EY. rewrite Y1 in EX, EY.
  set (fx := B2R (pp_fx k)) in *. set (fy := B2R (pp_fy k)) in *. set (s := B2R (pp_skew k)) in *.
  pose (dx := vx y - vx t / vz t). pose (dy := vy y - vy t / vz t).
  assert (E0 : 0 <= e) by (eapply Rle_trans; [apply Rabs_pos|exact EY]).
  assert (If : 0 < / f) by now apply Rinv_0_lt_compat. assert (Ef : 0 <= e / f) by (apply Rmult_le_pos; lra).
  assert (Dv : forall g a b, f <= Rabs g -> Rabs (g * a) <= b -> Rabs a <= b / f).
  { intros g a b G B. rewrite Rabs_mult in B. apply Rmult_le_reg_l with f; [exact F0|].
    replace (f * (b / f)) with b by (field; lra). eapply Rle_trans; [|exact B]. apply Rmult_le_compat_r; [apply Rabs_pos|exact G]. }
  assert (BY : Rabs (fy * dy) <= e).
  { replace (fy * dy) with (fy * vy y / 1 + B2R (pp_cy k) - (fy * vy t / vz t + B2R (pp_cy k))) by (unfold dy; field; exact Z). exact EY. }
  assert (DY : Rabs dy <= e / f) by exact (Dv fy dy _ GY BY).
  assert (BS : Rabs (s * dy) <= e).
  { eapply Rle_trans; [|exact BY]. rewrite !Rabs_mult. apply Rmult_le_compat_r; [apply Rabs_pos|]. destruct SK as (_ & _ & L). exact L. }
  assert (BX : Rabs (fx * dx) <= 2 * e).
  { replace (fx * dx) with (((fx * vx y + s * vy y) / 1 + B2R (pp_cx k) - ((fx * vx t + s * vy t) / vz t + B2R (pp_cx k))) + - (s * dy))
      by (unfold dx, dy; field; exact Z).
    replace (2 * e) with (e + e) by ring. apply tri; [exact EX|rewrite Rabs_Ropp; exact BS]. }
  assert (DX : Rabs dx <= 2 * (e / f)).
  { replace (2 * (e / f)) with (2 * e / f) by (field; lra). exact (Dv fx dx _ GX BX). }
  unfold vdist. apply vlen_bound; [lra|..]; unfold vsub, vscl; cbn [vx vy vz].
  - replace (vx y - / vz t * vx t) with dx by (unfold dx; field; exact Z). exact DX.
  - replace (vy y - / vz t * vy t) with dy by (unfold dy; field; exact Z). lra.
  - rewrite Y1. replace (1 - / vz t * vz t) with 0 by (field; exact Z). rewrite Rabs_R0. lra.
Qed.

Lemma persp_pass p X f eps : sized 0 P (px p) -> sized 0 P (py p) -> 0 < f -> f <= Rabs (B2R (pp_fx k)) -> f <= Rabs (B2R (pp_fy k)) ->
  depth q (vreal c) X <> 0 -> pix_near eps p (pinhole k (to_camera q (vreal c) X)) ->
  let s := 3.5 * ((eps + 13.2 * u * P) / f) + 530 * u * M in
  let z := depth q (vreal c) X in
  let d := vreal (c2wv (persp_unproject_row k p)) in
  vdist (vscl z d) (vsub X (vreal c)) <= Rabs z * s /\
  vdist X (vadd (vreal (c2w v3_zero)) (vscl z d)) <= 2600 * u * M + Rabs z * s /\
  1 - 530 * u * M <= vlen d <= 2.1 * M /\ Rabs z <= vlen (vsub X (vreal c)).
Proof.
  intros PX PY F0 GX GY Z (QX & QY) s z d. pose proof uM as UM. pose proof uM' as UM'. pose proof u_pos as U0.
  destruct (persp_row_near p PX PY) as (y & Y1 & YL & (RX & RY) & D).
  set (t := to_camera q (vreal c) X) in *.
  assert (B1 : vdist y (vscl (/ vz t) t) <= 1.75 * (2 * ((eps + 13.2 * u * P) / f))).
  { apply pinhole_back; [exact Y1|exact Z|exact F0|exact GX|exact GY| |]; rewrite Rabs_minus_sym; eapply near_le; eassumption. }
  pose proof (orthogonal_mtr _ (rotm_orthogonal q U)) as OR.
  assert (Et : vsub X (vreal c) = vscl z (mv (mtr (rotm q)) (vscl (/ vz t) t))).
  { unfold z, depth. fold t. rewrite mv_vscl, vscl_vscl. replace (vz t * / vz t) with 1 by (field; exact Z). rewrite vscl_1.
    unfold t, to_camera. symmetry. apply orthogonal_inv_l. now apply rotm_orthogonal. }
  apply vec_near_dist in D. fold d in D.
  set (Ry := mv (mtr (rotm q)) y) in *. set (Rt := mv (mtr (rotm q)) (vscl (/ vz t) t)) in *.
  assert (B2 : vdist Ry Rt <= 1.75 * (2 * ((eps + 13.2 * u * P) / f))).
  { unfold vdist, Ry, Rt. rewrite <- mv_vsub, orthogonal_len by exact OR. exact B1. }
  assert (B3 : vdist d Rt <= s).
  { eapply Rle_trans; [apply vdist_triangle with (b := Ry)|]. unfold s. lra. }
  assert (B4 : vdist (vscl z d) (vsub X (vreal c)) <= Rabs z * s).
  { rewrite Et. unfold vdist. rewrite <- vscl_vsub, vlen_vscl. apply Rmult_le_compat_l; [apply Rabs_pos|exact B3]. }
  split; [exact B4|].
  assert (C1 : vdist (vreal (c2w v3_zero)) (vreal c) <= 2600 * u * M).
  { eapply Rle_trans; [apply vec_near_dist, center_near|]. lra. }
  split.
  { eapply Rle_trans; [apply vdist_split with (cr := vreal c)|]. apply Rplus_le_compat; [|exact B4].
    rewrite vdist_sym. exact C1. }
  assert (LY : vlen Ry = vlen y) by (unfold Ry; now apply orthogonal_len).
  assert (LY1 : 1 <= vlen y) by (rewrite <- Y1; eapply Rle_trans; [apply Rle_abs|apply comp_le]).
  assert (LY2 : vlen y <= 1.75 * M) by (apply vlen_bound; [lra|apply YL|apply YL|apply YL]).
  pose proof (vdist_len d Ry) as LD. rewrite LY in LD.
  split; [split; lra|].
  rewrite Et, vlen_vscl. rewrite <- (Rmult_1_r (Rabs z)) at 1. apply Rmult_le_compat_l; [apply Rabs_pos|].
  unfold Rt. rewrite orthogonal_len by exact OR.
  replace 1 with (Rabs (vz (vscl (/ vz t) t))); [apply comp_le|]. unfold vscl; cbn [vz]. replace (/ vz t * vz t) with 1 by (field; exact Z). apply Rabs_R1.
Qed.
End Persp.

(** *** Orthographic *)
Section Ortho.
Variables (k : OrthographicParams F) (P : R).
Hypotheses (K : ortho_sized P k) (P1 : 1 <= P)
  (SX : 5 * P <= M * Rabs (B2R (op_sx k))) (SY : 5 * P <= M * Rabs (B2R (op_sy k))) (PB : 512 * P < big).
Lemma ortho_dir_near : vec_near (302 * u) (c2wv (mkV3 o_zero o_zero o_one)) (mv (mtr (rotm q)) (mkV3 0 0 1)).
Proof.
  pose proof (fl_zero prec emax Hp He fsin fcos) as (Z1 & Z2). pose proof (fl_one prec emax Hp He fsin fcos) as (O1 & O2).
  replace (mkV3 0 0 1) with (vreal (mkV3 (@o_zero F _) o_zero o_one)) by (unfold vreal; cbn [vx vy vz]; now rewrite Z2, O2).
  rewrite <- (Rmult_1_r (302 * u)). apply dir_near; [|lra|lra].
  split; [|split]; (split; [assumption|]); cbn [vx vy vz]; rewrite ?Z2, ?O2, ?Rabs_R0, ?Rabs_R1; lra.
Qed.
Lemma ortho_row_near p : sized 0 P (px p) -> sized 0 P (py p) -> exists y,
  vz y = 0 /\ vle M y /\ pix_near (4.1 * u * P) p (parallel_pixel k y) /\
  vec_near (1461 * u * M) (c2w (ortho_unproject_row k p)) (to_world q (vreal c) y).
Proof.
  intros PX PY.
  destruct (ortho_unproject_near prec emax Hp He fsin fcos u UR U11 E17 k P M K P1 SX SY MB PB p PX PY) as (Y & Z & Q).
  exists (vreal (ortho_unproject_row k p)). split; [exact Z|]. split; [now apply vec_sized_vle|].
  split; [now replace (4.1 * u * P) with (4.1 * (u * P)) by ring|]. now apply c2w_exact.
Qed.
Lemma ortho_ray_eq p : ortho_ray k qh c p = Some (mkRay (c2w (ortho_unproject_row k p)) (c2wv (mkV3 o_zero o_zero o_one))).
Proof. unfold ortho_ray, camera_new. rewrite ortho_pixel_to_world_rows. reflexivity. Qed.

Lemma parallel_back y t f e : vz y = 0 -> 0 < f -> f <= Rabs (B2R (op_sx k)) -> f <= Rabs (B2R (op_sy k)) ->
  Rabs (px (parallel_pixel k y) - px (parallel_pixel k t)) <= e -> Rabs (py (parallel_pixel k y) - py (parallel_pixel k t)) <= e ->
  vdist (vadd y (mkV3 0 0 (vz t))) t <= 1.75 * (e / f).
Proof.
  intros Y0 F0 GX GY EX EY. unfold parallel_pixel in EX, EY. cbn [px py] in EX, EY.
  assert (E0 : 0 <= e) by (eapply Rle_trans; [apply Rabs_pos|exact EY]).
  assert (If : 0 < / f) by now apply Rinv_0_lt_compat. assert (Ef : 0 <= e / f) by (apply Rmult_le_pos; lra).
  assert (Dv : forall g a b, f <= Rabs g -> Rabs (g * a) <= b -> Rabs a <= b / f).
  { intros g a b G B. rewrite Rabs_mult in B. apply Rmult_le_reg_l with f; [exact F0|].
    replace (f * (b / f)) with b by (field; lra). eapply Rle_trans; [|exact B]. apply Rmult_le_compat_r; [apply Rabs_pos|exact G]. }
  unfold vdist. apply vlen_bound; [lra|..]; unfold vsub, vadd; cbn [vx vy vz].
  - apply (Dv (B2R (op_sx k))); [exact GX|].
    replace (B2R (op_sx k) * (vx y + 0 - vx t)) with (B2R (op_sx k) * vx y + B2R (op_cx k) - (B2R (op_sx k) * vx t + B2R (op_cx k))) by ring. exact EX.
  - apply (Dv (B2R (op_sy k))); [exact GY|].
    replace (B2R (op_sy k) * (vy y + 0 - vy t)) with (B2R (op_sy k) * vy y + B2R (op_cy k) - (B2R (op_sy k) * vy t + B2R (op_cy k))) by ring. exact EY.
  - rewrite Y0. replace (0 + vz t - vz t) with 0 by ring. rewrite Rabs_R0. lra.
Qed.

Lemma ortho_pass p X f eps : sized 0 P (px p) -> sized 0 P (py p) -> 0 < f -> f <= Rabs (B2R (op_sx k)) -> f <= Rabs (B2R (op_sy k)) ->
  pix_near eps p (parallel_pixel k (to_camera q (vreal c) X)) ->
  let s := 1.75 * ((eps + 4.1 * u * P) / f) in
  let z := depth q (vreal c) X in
  let d := vreal (c2wv (mkV3 o_zero o_zero o_one)) in
  vdist d (mv (mtr (rotm q)) (mkV3 0 0 1)) <= 530 * u /\
  vdist X (vadd (vreal (c2w (ortho_unproject_row k p))) (vscl z d)) <= 2600 * u * M + s + Rabs z * (530 * u).
Proof.
  intros PX PY F0 GX GY (QX & QY) s z d. pose proof uM as UM. pose proof uM' as UM'. pose proof u_pos as U0.
  destruct (ortho_row_near p PX PY) as (y & Y0 & YL & (RX & RY) & D).
  set (t := to_camera q (vreal c) X) in *.
  assert (B1 : vdist (vadd y (mkV3 0 0 (vz t))) t <= 1.75 * ((eps + 4.1 * u * P) / f)).
  { apply parallel_back; [exact Y0|exact F0|exact GX|exact GY| |]; rewrite Rabs_minus_sym; eapply near_le; eassumption. }
  pose proof (orthogonal_mtr _ (rotm_orthogonal q U)) as OR.
  pose proof ortho_dir_near as DN. apply vec_near_dist in DN. fold d in DN.
  assert (DN' : vdist d (mv (mtr (rotm q)) (mkV3 0 0 1)) <= 530 * u) by lra. clear DN.
  split; [exact DN'|].
  apply vec_near_dist in D. set (ch := vreal (c2w (ortho_unproject_row k p))) in *.
  set (e := mv (mtr (rotm q)) (mkV3 0 0 1)) in *.
  assert (Et : X = to_world q (vreal c) t) by (unfold t; symmetry; now apply to_world_to_camera).
  assert (E1 : vdist X (vadd (to_world q (vreal c) y) (vscl z e)) <= s).
  { rewrite vdist_sym. unfold vdist.
    replace (vsub (vadd (to_world q (vreal c) y) (vscl z e)) X) with (mv (mtr (rotm q)) (vsub (vadd y (mkV3 0 0 (vz t))) t)).
    - rewrite orthogonal_len by exact OR. exact B1.
    - replace (mkV3 0 0 (vz t)) with (vscl z (mkV3 0 0 1)) by (unfold z, depth; fold t; unfold vscl; cbn; f_equal; ring).
      rewrite mv_vsub, mv_vadd, mv_vscl. fold e.
      transitivity (vsub (vadd (to_world q (vreal c) y) (vscl z e)) (to_world q (vreal c) t)); [|now rewrite <- Et].
      unfold to_world. apply shift_cancel. }
  eapply Rle_trans; [apply vdist_triangle with (b := vadd (to_world q (vreal c) y) (vscl z e))|].
  assert (E2 : vdist (vadd (to_world q (vreal c) y) (vscl z e)) (vadd ch (vscl z d)) <= 2600 * u * M + Rabs z * (530 * u)).
  { eapply Rle_trans; [apply vdist_split2|]. apply Rplus_le_compat; [lra|]. apply Rmult_le_compat_l; [apply Rabs_pos|exact DN']. }
  lra.
Qed.
End Ortho.
End Cam.
End Rays.
