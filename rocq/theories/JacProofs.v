(** * JacProofs.v - lemmas behind C47, C61 *)

From Coq Require Import Reals List Lra Psatz.
From Verif Require Import Scalar Linalg Bundles Extrinsics Perspective Camera Linearize Spec Rows RealBase VecLemmas ExtrinsicsProofs IntrinsicsProofs CameraProofs CamMatProofs.
Import ListNotations.
Local Open Scope R_scope.

Lemma cauchy_schwarz a b : Rabs (vdot a b) <= vlen a * vlen b.
Proof.
  apply Rsqr_incr_0_var; [|apply Rmult_le_pos; apply vlen_nonneg].
  rewrite <- Rsqr_abs. unfold Rsqr.
  replace (vlen a * vlen b * (vlen a * vlen b)) with ((vlen a * vlen a) * (vlen b * vlen b)) by ring.
  rewrite !vlen_sq. pose proof (lagrange a b). pose proof (vdot_self_nonneg (vcross a b)). lra.
Qed.

(** Rows of the Jacobian. *)
Definition jrow0 (j : M23 R) : V3 R := mkV3 (j00 j) (j01 j) (j02 j).
Definition jrow1 (j : M23 R) : V3 R := mkV3 (j10 j) (j11 j) (j12 j).

(** The derivative of a homogeneous projection, with the exact remainder. *)
Lemma hproject_remainder (m : M34 R) p o :
  vz (happly m p) <> 0 -> vz (happly m (vadd p o)) <> 0 ->
  px (hproject m (vadd p o)) - px (hproject m p)
  = vz (happly m p) / vz (happly m (vadd p o)) * vdot (jrow0 (linearize_at m p)) o /\
  py (hproject m (vadd p o)) - py (hproject m p)
  = vz (happly m p) / vz (happly m (vadd p o)) * vdot (jrow1 (linearize_at m p)) o.
Proof.
  intros A B. destruct m as [a b c d e f g h i j k l], p as [x y z], o as [u v w].
  unfold jrow0, jrow1, linearize_at, powi_m2.
  split; ru; field; split; assumption || (intros E; apply A; lra) || (intros E; apply B; lra).
Qed.

Lemma happly_add m p o : happly m (vadd p o) = vadd (happly m p) (mv (left33 m) o).
Proof. unfold happly. rewrite mv_vadd. generalize (mv (left33 m) p) (mv (left33 m) o) (col4 m). vring. Qed.
Lemma vz_mv m o : vz (mv m o) = vdot (mrow2 m) o. Proof. reflexivity. Qed.

(** Smallness of the remainder. *)
Lemma remainder_small (D : R) (g r : V3 R) eps : D <> 0 -> 0 < eps ->
  exists delta, 0 < delta /\ forall o, vlen o < delta ->
    D + vdot g o <> 0 /\ Rabs (D / (D + vdot g o) * vdot r o - vdot r o) <= eps * vlen o.
Proof.
  intros D0 E0. pose proof (vlen_nonneg g) as G0. pose proof (vlen_nonneg r) as R0.
  assert (AD : 0 < Rabs D) by now apply Rabs_pos_lt.
  set (K := 2 * (1 + vlen g) * (1 + vlen r)). assert (KP : 0 < K) by (unfold K; nra).
  set (d1 := Rabs D / (2 * (1 + vlen g))). set (d2 := eps * Rabs D / K).
  assert (P1 : 0 < d1). { unfold d1. apply Rdiv_lt_0_compat; nra. }
  assert (P2 : 0 < d2). { unfold d2. apply Rdiv_lt_0_compat; [nra|exact KP]. }
  exists (Rmin d1 d2). split; [now apply Rmin_glb_lt|]. intros o Ho.
  assert (O1 : vlen o < d1) by (eapply Rlt_le_trans; [exact Ho|apply Rmin_l]).
  assert (O2 : vlen o < d2) by (eapply Rlt_le_trans; [exact Ho|apply Rmin_r]).
  pose proof (vlen_nonneg o) as L0.
  pose proof (cauchy_schwarz g o) as CG. pose proof (cauchy_schwarz r o) as CR.
  assert (Q1 : (1 + vlen g) * vlen o < Rabs D / 2).
  { apply (Rmult_lt_compat_l (1 + vlen g)) in O1; [|lra]. unfold d1 in O1.
    replace ((1 + vlen g) * (Rabs D / (2 * (1 + vlen g)))) with (Rabs D / 2) in O1 by (field; lra). exact O1. }
  assert (Q2 : K * vlen o < eps * Rabs D).
  { apply (Rmult_lt_compat_l K) in O2; [|exact KP]. unfold d2 in O2.
    replace (K * (eps * Rabs D / K)) with (eps * Rabs D) in O2 by (field; lra). exact O2. }
  assert (GO : Rabs (vdot g o) < Rabs D / 2) by nra.
  assert (DD : Rabs D / 2 < Rabs (D + vdot g o)).
  { pose proof (Rabs_triang (D + vdot g o) (- vdot g o)) as T. rewrite Rabs_Ropp in T.
    replace (D + vdot g o + - vdot g o) with D in T by ring. lra. }
  assert (NZ : D + vdot g o <> 0). { intros Z. rewrite Z, Rabs_R0 in DD. lra. }
  split; [exact NZ|].
  replace (D / (D + vdot g o) * vdot r o - vdot r o) with (- (vdot g o * vdot r o) / (D + vdot g o))
    by (field; exact NZ).
  unfold Rdiv. rewrite Rabs_mult, Rabs_Ropp, Rabs_mult, Rabs_inv.
  apply (Rmult_le_reg_r (Rabs (D + vdot g o))); [lra|].
  rewrite Rmult_assoc, Rinv_l by lra. rewrite Rmult_1_r.
  apply Rle_trans with ((vlen g * vlen o) * (vlen r * vlen o)).
  { apply Rmult_le_compat; auto using Rabs_pos. }
  apply Rle_trans with (eps * vlen o * (Rabs D / 2)); [|apply Rmult_le_compat_l; [nra|lra]].
  assert (M : vlen g * vlen r * vlen o <= eps * (Rabs D / 2)).
  { apply Rle_trans with ((1 + vlen g) * (1 + vlen r) * vlen o).
    - apply Rmult_le_compat_r; [exact L0|]. nra.
    - unfold K in Q2. lra. }
  replace (vlen g * vlen o * (vlen r * vlen o)) with (vlen g * vlen r * vlen o * vlen o) by ring.
  replace (eps * vlen o * (Rabs D / 2)) with (eps * (Rabs D / 2) * vlen o) by ring.
  now apply Rmult_le_compat_r.
Qed.

(** [m] projects like the camera. *)
Definition projects_like (m : M34 R) (k : PerspectiveParams R) q c : Prop :=
  exists s, s <> 0 /\ forall x, happly m x = vscl s (mv (kp k) (to_camera q c x)).

Lemma depth_scale m k q c : projects_like m k q c -> exists s, s <> 0 /\
  forall x, vz (happly m x) = s * vz (to_camera q c x).
Proof. intros (s & S & H). exists s. split; [exact S|]. intros x. rewrite H. unfold vscl; cbn [vz]. now rewrite kp_z. Qed.

Lemma jac_general m k q c (F : V3 R -> V2 R) p : unit_quat q -> projects_like m k q c ->
  let depth x := vz (mv (rotm q) (vsub x c)) in
  let J := linearize_at m p in
  let ru := mkV3 (j00 J) (j01 J) (j02 J) in
  let rv := mkV3 (j10 J) (j11 J) (j12 J) in
  (forall x, depth x <> 0 ->
     world_to_pixel (camera_new (perspective_from k) (frc q c)) (mkPoints [x]) = Some (mkPixels [F x])) ->
  depth p <> 0 ->
  (* exact remainder *)
  (forall o, depth (vadd p o) <> 0 ->
     px (F (vadd p o)) - px (F p) = depth p / depth (vadd p o) * vdot ru o /\
     py (F (vadd p o)) - py (F p) = depth p / depth (vadd p o) * vdot rv o) /\
  (* Frechet derivative *)
  (forall eps, 0 < eps -> exists delta, 0 < delta /\ forall o, vlen o < delta ->
     Rabs (px (F (vadd p o)) - px (F p) - vdot ru o) <= eps * vlen o /\
     Rabs (py (F (vadd p o)) - py (F p) - vdot rv o) <= eps * vlen o) /\
  (* directional derivatives, so in particular partial derivatives *)
  (forall e, derivable_pt_lim (fun t => px (F (vadd p (vscl t e)))) 0 (vdot ru e) /\
             derivable_pt_lim (fun t => py (F (vadd p (vscl t e)))) 0 (vdot rv e)).
Proof.
  intros U PL depth J ru rv HF Dp.
  destruct (depth_scale m k q c PL) as (s & S & HS).
  assert (FE : forall x, depth x <> 0 -> F x = hproject m x /\ vz (happly m x) <> 0).
  { intros x Dx. assert (Z : vz (happly m x) <> 0).
    { rewrite HS. now apply Rmult_integral_contrapositive_currified. }
    split; [|exact Z]. destruct PL as (s' & S' & HP).
    destruct (hproject_scaled m k q c s' x S' (HP x) Z) as (_ & E). rewrite E.
    specialize (HF x Dx). rewrite world_to_pixel_persp in HF; [|exact U|now repeat constructor].
    cbn [map] in HF. now injection HF. }
  destruct (FE p Dp) as (Fp & Zp).
  assert (EX : forall o, depth (vadd p o) <> 0 ->
     px (F (vadd p o)) - px (F p) = depth p / depth (vadd p o) * vdot ru o /\
     py (F (vadd p o)) - py (F p) = depth p / depth (vadd p o) * vdot rv o).
  { intros o Do. destruct (FE _ Do) as (Fo & Zo). rewrite Fp, Fo.
    replace (depth p / depth (vadd p o)) with (vz (happly m p) / vz (happly m (vadd p o))).
    - exact (hproject_remainder m p o Zp Zo).
    - rewrite !HS. unfold depth, to_camera in *. field. auto. }
  assert (FR : forall eps, 0 < eps -> exists delta, 0 < delta /\ forall o, vlen o < delta ->
     Rabs (px (F (vadd p o)) - px (F p) - vdot ru o) <= eps * vlen o /\
     Rabs (py (F (vadd p o)) - py (F p) - vdot rv o) <= eps * vlen o).
  { intros eps E0.
    destruct (remainder_small (depth p) (mrow2 (rotm q)) ru eps Dp E0) as (d1 & P1 & H1).
    destruct (remainder_small (depth p) (mrow2 (rotm q)) rv eps Dp E0) as (d2 & P2 & H2).
    exists (Rmin d1 d2). split; [now apply Rmin_glb_lt|]. intros o Ho.
    destruct (H1 o) as (N1 & R1); [eapply Rlt_le_trans; [exact Ho|apply Rmin_l]|].
    destruct (H2 o) as (N2 & R2); [eapply Rlt_le_trans; [exact Ho|apply Rmin_r]|].
    assert (DE : depth (vadd p o) = depth p + vdot (mrow2 (rotm q)) o).
    { unfold depth. rewrite <- vz_mv. replace (vsub (vadd p o) c) with (vadd (vsub p c) o) by vring.
      rewrite mv_vadd. reflexivity. }
    destruct (EX o) as (-> & ->); [rewrite DE; exact N1|]. rewrite DE. auto. }
  split; [exact EX|]. split; [exact FR|].
  (* directional derivatives *)
  assert (P0 : forall e, vadd p (vscl 0 e) = p) by (intros; vring).
  assert (L : forall (G : V3 R -> R) (r e : V3 R),
    (forall eps, 0 < eps -> exists delta, 0 < delta /\ forall o, vlen o < delta ->
       Rabs (G (vadd p o) - G p - vdot r o) <= eps * vlen o) ->
    derivable_pt_lim (fun t => G (vadd p (vscl t e))) 0 (vdot r e)).
  { intros G r e H eps E0. pose proof (vlen_nonneg e) as L0.
    destruct (H (eps / (2 * (1 + vlen e)))) as (d & dp & Hd); [apply Rdiv_lt_0_compat; lra|].
    assert (Q : 0 < d / (1 + vlen e)) by (apply Rdiv_lt_0_compat; lra).
    exists (mkposreal _ Q). intros h H0 Hh. cbn [pos] in Hh. rewrite P0, Rplus_0_l.
    assert (Lh : vlen (vscl h e) < d).
    { rewrite vlen_vscl. apply (Rmult_lt_compat_r (1 + vlen e)) in Hh; [|lra].
      unfold Rdiv in Hh. rewrite Rmult_assoc, Rinv_l in Hh by lra. pose proof (Rabs_pos h). nra. }
    specialize (Hd _ Lh). rewrite vdot_vscl_r, vlen_vscl in Hd.
    replace ((G (vadd p (vscl h e)) - G p) / h - vdot r e)
      with ((G (vadd p (vscl h e)) - G p - h * vdot r e) / h) by (field; exact H0).
    unfold Rdiv at 1. rewrite Rabs_mult, Rabs_inv.
    assert (Ah : 0 < Rabs h) by now apply Rabs_pos_lt.
    apply (Rmult_lt_reg_r (Rabs h)); [exact Ah|]. rewrite Rmult_assoc, Rinv_l, Rmult_1_r by lra.
    eapply Rle_lt_trans; [exact Hd|].
    replace (eps / (2 * (1 + vlen e)) * (Rabs h * vlen e)) with (eps * Rabs h * (vlen e / (2 * (1 + vlen e))))
      by (field; lra).
    assert (W : vlen e / (2 * (1 + vlen e)) < 1).
    { apply (Rmult_lt_reg_r (2 * (1 + vlen e))); [lra|]. unfold Rdiv. rewrite Rmult_assoc, Rinv_l by lra. lra. }
    assert (0 < eps * Rabs h) by (apply Rmult_lt_0_compat; lra). nra. }
  intros e. split.
  - refine (L (fun x => px (F x)) ru e _). intros eps E0. destruct (FR eps E0) as (d & dp & Hd).
    exists d. split; [exact dp|]. intros o Ho. now apply Hd.
  - refine (L (fun x => py (F x)) rv e _). intros eps E0. destruct (FR eps E0) as (d & dp & Hd).
    exists d. split; [exact dp|]. intros o Ho. now apply Hd.
Qed.

Lemma projects_like_cache k q c : unit_quat q -> vz (mv (rotm q) c) <> 0 ->
  projects_like (jacobian_cache_new (camera_new (perspective_from k) (frc q c))) k q c.
Proof.
  intros U Z.
  assert (Z' : vz (to_camera q c vO) <> 0).
  { intros E. apply Z. unfold to_camera in E. rewrite mv_vsub, mv_O in E.
    unfold vsub, vO in E; cbn [vz] in E. lra. }
  change (jacobian_cache_new (camera_new (perspective_from k) (frc q c)))
    with (as_camera_matrix (camera_new (perspective_from k) (frc q c))).
  rewrite as_camera_matrix_R by assumption.
  exists (/ vz (to_camera q c vO)). split; [now apply Rinv_neq_0_compat|]. intros; apply ref_happly.
Qed.
Lemma projects_like_raw k q c :
  projects_like (hstack (mm (kp k) (rotm q)) (mv (kp k) (vopp (mv (rotm q) c)))) k q c.
Proof.
  exists 1. split; [lra|]. intros x. rewrite vscl_1. unfold to_camera. rewrite mv_vsub, mv_vsub, <- (mv_mm (kp k)), mv_vopp.
  generalize (mv (kp k) (mv (rotm q) c)) (mm (kp k) (rotm q)). vring.
Qed.

Lemma C47_lemma k q c (F : V3 R -> V2 R) p : unit_quat q -> vz (mv (rotm q) c) <> 0 ->
  let cam := camera_new (perspective_from k) (frc q c) in
  let depth x := vz (mv (rotm q) (vsub x c)) in
  let J := linearize_at (jacobian_cache_new cam) p in
  let ru := mkV3 (j00 J) (j01 J) (j02 J) in
  let rv := mkV3 (j10 J) (j11 J) (j12 J) in
  (forall x, depth x <> 0 -> world_to_pixel cam (mkPoints [x]) = Some (mkPixels [F x])) ->
  depth p <> 0 ->
  (forall o, depth (vadd p o) <> 0 ->
     px (F (vadd p o)) - px (F p) = depth p / depth (vadd p o) * vdot ru o /\
     py (F (vadd p o)) - py (F p) = depth p / depth (vadd p o) * vdot rv o) /\
  (forall eps, 0 < eps -> exists delta, 0 < delta /\ forall o, vlen o < delta ->
     Rabs (px (F (vadd p o)) - px (F p) - vdot ru o) <= eps * vlen o /\
     Rabs (py (F (vadd p o)) - py (F p) - vdot rv o) <= eps * vlen o) /\
  (forall e, derivable_pt_lim (fun t => px (F (vadd p (vscl t e)))) 0 (vdot ru e) /\
             derivable_pt_lim (fun t => py (F (vadd p (vscl t e)))) 0 (vdot rv e)).
Proof. intros U Z. exact (jac_general _ k q c F p U (projects_like_cache k q c U Z)). Qed.

Lemma C61_lemma k q c (F : V3 R -> V2 R) p : unit_quat q ->
  let cam := camera_new (perspective_from k) (frc q c) in
  let K := kmat (pp_fx k) (pp_fy k) (pp_skew k) (pp_cx k) (pp_cy k) in
  let depth x := vz (mv (rotm q) (vsub x c)) in
  let J := linearize_at (hstack (mm K (rotm q)) (mv K (vopp (mv (rotm q) c)))) p in
  let ru := mkV3 (j00 J) (j01 J) (j02 J) in
  let rv := mkV3 (j10 J) (j11 J) (j12 J) in
  (forall x, depth x <> 0 -> world_to_pixel cam (mkPoints [x]) = Some (mkPixels [F x])) ->
  depth p <> 0 ->
  (forall eps, 0 < eps -> exists delta, 0 < delta /\ forall o, vlen o < delta ->
     Rabs (px (F (vadd p o)) - px (F p) - vdot ru o) <= eps * vlen o /\
     Rabs (py (F (vadd p o)) - py (F p) - vdot rv o) <= eps * vlen o).
Proof.
  intros U cam K depth J ru rv HF Dp.
  exact (proj1 (proj2 (jac_general _ k q c F p U (projects_like_raw k q c) HF Dp))).
Qed.

Lemma C48b_lemma k q (F : V3 R -> V2 R) p : unit_quat q ->
  (forall x, vz (mv (rotm q) x) <> 0 ->
     world_to_pixel (camera_new (perspective_from k) (frc q vO)) (mkPoints [x]) = Some (mkPixels [F x])) ->
  vz (mv (rotm q) p) <> 0 ->
  exists ru rv, forall eps, 0 < eps -> exists delta, 0 < delta /\ forall o, vlen o < delta ->
     Rabs (px (F (vadd p o)) - px (F p) - vdot ru o) <= eps * vlen o /\
     Rabs (py (F (vadd p o)) - py (F p) - vdot rv o) <= eps * vlen o.
Proof.
  intros U HF Dp. assert (E : forall x, vsub x vO = x) by (intros; vring).
  pose proof (C61_lemma k q vO F p U) as H. cbv beta zeta in H. rewrite E in H.
  do 2 eexists. refine (H _ Dp). intros x Hx. rewrite E in Hx. now apply HF.
Qed.
