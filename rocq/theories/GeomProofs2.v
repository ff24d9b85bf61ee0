(** * GeomProofs2.v - lemmas behind C76-C78 *)

From Coq Require Import Reals List Lra Psatz.
From Verif Require Import Scalar Linalg Bundles Extrinsics Perspective Orthographic Camera Spec SpecGeom Rows RealBase VecLemmas ExtrinsicsProofs FromViewProofs IntrinsicsProofs CameraProofs CamMatProofs GeomProofs.
Import ListNotations.
Local Open Scope R_scope.

(** ** Inverses *)
Definition minv (m : M33 R) : M33 R := mscl (/ mdet m) (madj m).
Lemma minv_l m : mdet m <> 0 -> mm (minv m) m = mI.
Proof. intros D. unfold minv. rewrite mm_mscl_l, madj_l, mscl_mscl, Rinv_l by exact D. apply mscl_1. Qed.
Lemma minv_r m : mdet m <> 0 -> mm m (minv m) = mI.
Proof. intros D. unfold minv. rewrite mm_mscl_r, madj_r, mscl_mscl, Rinv_l by exact D. apply mscl_1. Qed.
Lemma minv_det m : mdet m <> 0 -> mdet (minv m) <> 0.
Proof.
  intros D E. pose proof (f_equal mdet (minv_l m D)) as G. rewrite mdet_mm, mdet_I, E in G. lra.
Qed.

(** ** C76: homographies *)
Lemma homog_pixel k y : vz y <> 0 -> homog (persp_pixel k y) = vscl (/ vz y) (mv (kp k) y).
Proof.
  intros Z. rewrite kp_pixel by exact Z. rewrite kp_z. unfold homog. cbn [px py].
  pose proof (kp_z k y) as E. destruct (mv (kp k) y) as [a b d]. cbn [vz] in E. subst d.
  apply V3_eq; unfold vscl; cbn [vx vy vz]; field; exact Z.
Qed.
Lemma represents_scaled s h k y : s <> 0 -> vz y <> 0 -> h = vscl s (mv (kp k) y) -> represents h (persp_pixel k y).
Proof.
  intros S Z ->. pose proof (kp_z k y) as E. rewrite kp_pixel by exact Z. unfold represents, dehomog.
  destruct (mv (kp k) y) as [a b d]. unfold vscl. cbn [vx vy vz] in *. subst d.
  split; [now apply Rmult_integral_contrapositive_currified|]. f_equal; field; auto.
Qed.

Definition hmat k1 q1 k2 q2 (m : M33 R) : M33 R :=
  mm (mm (mm (kp k2) (rotm q2)) m) (minv (mm (kp k1) (rotm q1))).
Lemma kr_det k q : unit_quat q -> mdet (mm (kp k) (rotm q)) = pp_fx k * pp_fy k.
Proof. intros U. rewrite mdet_mm, kp_det, rotm_det by exact U. ring. Qed.
Lemma kr_det_nz k q : unit_quat q -> pp_fx k <> 0 -> pp_fy k <> 0 -> mdet (mm (kp k) (rotm q)) <> 0.
Proof. intros U A B. rewrite kr_det by exact U. now apply Rmult_integral_contrapositive_currified. Qed.

Lemma hmat_eq k1 q1 k2 q2 m : unit_quat q1 -> pp_fx k1 <> 0 -> pp_fy k1 <> 0 ->
  mm (hmat k1 q1 k2 q2 m) (mm (kp k1) (rotm q1)) = mm (mm (kp k2) (rotm q2)) m.
Proof. intros. unfold hmat. rewrite <- mm_assoc, minv_l, mm_I_r; [reflexivity|]. now apply kr_det_nz. Qed.

Lemma homography k1 q1 c1 k2 q2 c2 m x : unit_quat q1 -> unit_quat q2 -> pp_fx k1 <> 0 -> pp_fy k1 <> 0 ->
  depth q1 c1 x <> 0 -> depth q2 c2 x <> 0 -> vsub x c2 = mv m (vsub x c1) ->
  represents (mv (hmat k1 q1 k2 q2 m) (homog (persp_pixel k1 (to_camera q1 c1 x)))) (persp_pixel k2 (to_camera q2 c2 x)).
Proof.
  intros U1 U2 A B Z1 Z2 E. unfold depth in *. rewrite homog_pixel by exact Z1.
  apply (represents_scaled (/ vz (to_camera q1 c1 x))); [now apply Rinv_neq_0_compat|exact Z2|].
  rewrite mv_vscl. f_equal. unfold to_camera.
  rewrite <- (mv_mm (kp k1)), <- (mv_mm (hmat _ _ _ _ _)), hmat_eq by assumption. now rewrite mv_mm, <- E, mv_mm.
Qed.

Lemma C76_lemma k1 q1 k2 q2 c : unit_quat q1 -> unit_quat q2 -> pp_fx k1 <> 0 -> pp_fy k1 <> 0 ->
  exists H, mdet H = pp_fx k2 * pp_fy k2 / (pp_fx k1 * pp_fy k1) /\
  forall x, depth q1 c x <> 0 -> depth q2 c x <> 0 -> exists p1 p2,
    world_to_pixel (camera_new (perspective_from k1) (frc q1 c)) (mkPoints [x]) = Some (mkPixels [p1]) /\
    world_to_pixel (camera_new (perspective_from k2) (frc q2 c)) (mkPoints [x]) = Some (mkPixels [p2]) /\
    represents (mv H (homog p1)) p2.
Proof.
  intros U1 U2 A B. exists (hmat k1 q1 k2 q2 mI). split.
  - pose proof (f_equal mdet (hmat_eq k1 q1 k2 q2 mI U1 A B)) as E.
    rewrite mm_I_r, mdet_mm, !kr_det in E by assumption. 
    apply (Rmult_eq_reg_r (pp_fx k1 * pp_fy k1)); [|now apply Rmult_integral_contrapositive_currified].
    rewrite E. field. auto.
  - intros x Z1 Z2. do 2 eexists. split; [|split].
    + rewrite world_to_pixel_persp; [reflexivity|assumption|now constructor].
    + rewrite world_to_pixel_persp; [reflexivity|assumption|now constructor].
    + apply homography; try assumption. now rewrite mv_I.
Qed.

(** [I + a b^T] *)
Definition rank1 (a b : V3 R) : M33 R :=
  mkM33 (1 + vx a * vx b) (vx a * vy b) (vx a * vz b)
        (vy a * vx b) (1 + vy a * vy b) (vy a * vz b)
        (vz a * vx b) (vz a * vy b) (1 + vz a * vz b).
Lemma rank1_mv a b v : mv (rank1 a b) v = vadd v (vscl (vdot b v) a).
Proof. unfold rank1. vring. Qed.
Lemma rank1_det a b : mdet (rank1 a b) = 1 + vdot a b.
Proof. unfold rank1. vring. Qed.

Lemma C76b_lemma k1 q1 c1 k2 q2 c2 n h : unit_quat q1 -> unit_quat q2 -> pp_fx k1 <> 0 -> pp_fy k1 <> 0 ->
  vdot n c1 <> h ->
  exists H, mdet H = pp_fx k2 * pp_fy k2 / (pp_fx k1 * pp_fy k1) * ((h - vdot n c2) / (h - vdot n c1)) /\
  forall x, vdot n x = h -> depth q1 c1 x <> 0 -> depth q2 c2 x <> 0 -> exists p1 p2,
    world_to_pixel (camera_new (perspective_from k1) (frc q1 c1)) (mkPoints [x]) = Some (mkPixels [p1]) /\
    world_to_pixel (camera_new (perspective_from k2) (frc q2 c2)) (mkPoints [x]) = Some (mkPixels [p2]) /\
    represents (mv H (homog p1)) p2.
Proof.
  intros U1 U2 A B N. set (M := rank1 (vscl (/ (h - vdot n c1)) (vsub c1 c2)) n).
  exists (hmat k1 q1 k2 q2 M). split.
  - pose proof (f_equal mdet (hmat_eq k1 q1 k2 q2 M U1 A B)) as E.
    rewrite !mdet_mm, (kp_det k1), (kp_det k2), !rotm_det in E by assumption. unfold M in E at 2. rewrite rank1_det in E.
    apply (Rmult_eq_reg_r (pp_fx k1 * pp_fy k1 * 1)); [|rewrite Rmult_1_r; now apply Rmult_integral_contrapositive_currified].
    rewrite E, vdot_vscl_l, vdot_vsub_l, (vdot_comm c1), (vdot_comm c2). field. split; [lra|auto].
  - intros x P Z1 Z2. do 2 eexists. split; [|split].
    + rewrite world_to_pixel_persp; [reflexivity|assumption|now constructor].
    + rewrite world_to_pixel_persp; [reflexivity|assumption|now constructor].
    + apply homography; try assumption. unfold M. rewrite rank1_mv, vdot_vsub_r, P, vscl_vscl, Rinv_r, vscl_1 by lra. vring.
Qed.

(** ** C77: epipolar geometry *)
Definition cross_mat (t : V3 R) : M33 R := mkM33 0 (- vz t) (vy t) (vz t) 0 (- vx t) (- vy t) (vx t) 0.
Lemma cross_mat_mv t v : mv (cross_mat t) v = vcross t v.
Proof. unfold cross_mat. vring. Qed.
Definition fund k1 q1 c1 k2 q2 c2 : M33 R :=
  mm (mm (mtr (minv (mm (kp k2) (rotm q2)))) (cross_mat (vsub c2 c1))) (minv (mm (kp k1) (rotm q1))).
Lemma unproject_inv k q p : unit_quat q -> pp_fx k <> 0 -> pp_fy k <> 0 ->
  mv (mtr (rotm q)) (persp_unproject_row k p) = mv (minv (mm (kp k) (rotm q))) (homog p).
Proof.
  intros U A B. 
  assert (E : mv (kp k) (persp_unproject_row k p) = homog p).
  { destruct k, p. unfold kp, homog. apply V3_eq; ru; cbn in *; field; auto. }
  rewrite <- E. rewrite <- (orthogonal_inv_r (rotm q) (persp_unproject_row k p)) at 2 by now apply rotm_orthogonal.
  rewrite <- (mv_mm (kp k)), <- mv_mm, minv_l, mv_I; [reflexivity|now apply kr_det_nz].
Qed.
Lemma fund_triple k1 q1 c1 k2 q2 c2 p1 p2 : unit_quat q1 -> unit_quat q2 ->
  pp_fx k1 <> 0 -> pp_fy k1 <> 0 -> pp_fx k2 <> 0 -> pp_fy k2 <> 0 ->
  vdot (homog p2) (mv (fund k1 q1 c1 k2 q2 c2) (homog p1))
  = triple (vsub c2 c1) (mv (mtr (rotm q1)) (persp_unproject_row k1 p1)) (mv (mtr (rotm q2)) (persp_unproject_row k2 p2)).
Proof.
  intros. rewrite !unproject_inv by assumption. unfold fund. rewrite !mv_mm, cross_mat_mv.
  rewrite <- vdot_mv. unfold triple. generalize (mv (minv (mm (kp k1) (rotm q1))) (homog p1)), (mv (minv (mm (kp k2) (rotm q2))) (homog p2)), (vsub c2 c1).
  vring.
Qed.
Lemma mm_O_l a : mm (mscl 0 mI) a = mscl 0 mI. Proof. vring. Qed.
Lemma mm_O_r a : mm a (mscl 0 mI) = mscl 0 mI. Proof. vring. Qed.
Lemma fund_det k1 q1 c1 k2 q2 c2 : mdet (fund k1 q1 c1 k2 q2 c2) = 0.
Proof.
  unfold fund. rewrite !mdet_mm. 
  replace (mdet (cross_mat (vsub c2 c1))) with 0; [ring|]. unfold cross_mat. vring.
Qed.
Lemma fund_nonzero k1 q1 c1 k2 q2 c2 : unit_quat q1 -> unit_quat q2 ->
  pp_fx k1 <> 0 -> pp_fy k1 <> 0 -> pp_fx k2 <> 0 -> pp_fy k2 <> 0 ->
  fund k1 q1 c1 k2 q2 c2 = mscl 0 mI -> c1 = c2.
Proof.
  intros U1 U2 A B C D E. unfold fund in E.
  set (b1 := mm (kp k1) (rotm q1)) in *. set (b2 := mm (kp k2) (rotm q2)) in *.
  assert (D1 : mdet b1 <> 0) by now apply kr_det_nz. assert (D2 : mdet b2 <> 0) by now apply kr_det_nz.
  assert (G : cross_mat (vsub c2 c1) = mscl 0 mI).
  { transitivity (mm (mtr b2) (mm (mm (mm (mtr (minv b2)) (cross_mat (vsub c2 c1))) (minv b1)) b1)).
    - rewrite <- (mm_assoc _ (minv b1)), minv_l, mm_I_r, mm_assoc by exact D1.
      rewrite <- mtr_mm, minv_l by exact D2. replace (mtr mI) with mI by reflexivity. now rewrite mm_I_l.
    - rewrite E, mm_O_l. apply mm_O_r. }
  apply M33_inv in G. unfold cross_mat in G. destruct c1, c2. ru_spec. cbn in G. f_equal; lra.
Qed.
Lemma in_span t d1 d2 : triple t d1 d2 = 0 -> vcross d1 d2 <> vO -> exists s1 s2, t = vsub (vscl s1 d1) (vscl s2 d2).
Proof.
  intros T N. pose proof (vdot_self_pos _ N) as P. 
  assert (K : vscl (vdot (vcross d1 d2) (vcross d1 d2)) t
    = vsub (vscl (vdot (vcross t d2) (vcross d1 d2)) d1) (vscl (vdot (vcross t d1) (vcross d1 d2)) d2)).
  { replace (vscl (vdot (vcross d1 d2) (vcross d1 d2)) t)
      with (vadd (vsub (vscl (vdot (vcross t d2) (vcross d1 d2)) d1) (vscl (vdot (vcross t d1) (vcross d1 d2)) d2))
                 (vscl (triple t d1 d2) (vcross d1 d2))) by (clear; vring).
    rewrite T, vscl_0. apply vadd_0_r. }
  generalize dependent (vdot (vcross d1 d2) (vcross d1 d2)). intros n P K.
  generalize dependent (vdot (vcross t d2) (vcross d1 d2)). generalize (vdot (vcross t d1) (vcross d1 d2)). intros b a K.
  exists (a / n), (b / n). replace t with (vscl (/ n) (vscl n t)) by (rewrite vscl_vscl, Rinv_l, vscl_1; [reflexivity|lra]).
  rewrite K. unfold Rdiv. generalize (/ n). clear. vring.
Qed.
Lemma lines_meet c1 d1 c2 d2 : triple (vsub c2 c1) d1 d2 = 0 -> vcross d1 d2 <> vO ->
  exists s1 s2, vadd c1 (vscl s1 d1) = vadd c2 (vscl s2 d2).
Proof.
  intros T N. destruct (in_span _ _ _ T N) as (s1 & s2 & E). exists s1, s2.
  replace c2 with (vadd (vsub c2 c1) c1) by vring. rewrite E. clear. vring.
Qed.

Lemma C77_lemma k1 q1 c1 k2 q2 c2 : unit_quat q1 -> unit_quat q2 ->
  pp_fx k1 <> 0 -> pp_fy k1 <> 0 -> pp_fx k2 <> 0 -> pp_fy k2 <> 0 ->
  let cam1 := camera_new (perspective_from k1) (frc q1 c1) in
  let cam2 := camera_new (perspective_from k2) (frc q2 c2) in
  exists F, mdet F = 0 /\ (F = mscl 0 mI -> c1 = c2) /\
  (forall x, depth q1 c1 x <> 0 -> depth q2 c2 x <> 0 -> exists p1 p2,
     world_to_pixel cam1 (mkPoints [x]) = Some (mkPixels [p1]) /\
     world_to_pixel cam2 (mkPoints [x]) = Some (mkPixels [p2]) /\
     vdot (homog p2) (mv F (homog p1)) = 0) /\
  (forall p1 p2, exists (r1 r2 : RayBundle WorldFrame (SharedOriginRayBundle R) R) d1 d2,
     pixel_to_world cam1 (mkPixels [p1]) = Some r1 /\ pixel_to_world cam2 (mkPixels [p2]) = Some r2 /\
     directions r1 = Some [d1] /\ directions r2 = Some [d2] /\
     vdot (homog p2) (mv F (homog p1)) = triple (vsub c2 c1) d1 d2 /\
     (vcross d1 d2 <> vO ->
      (vdot (homog p2) (mv F (homog p1)) = 0 <-> exists s1 s2, vadd c1 (vscl s1 d1) = vadd c2 (vscl s2 d2)))).
Proof.
  intros U1 U2 A B C D cam1 cam2. exists (fund k1 q1 c1 k2 q2 c2).
  split; [apply fund_det|]. split; [now apply fund_nonzero|]. split.
  - intros x Z1 Z2. do 2 eexists. split; [|split].
    + unfold cam1. rewrite world_to_pixel_persp; [reflexivity|assumption|now constructor].
    + unfold cam2. rewrite world_to_pixel_persp; [reflexivity|assumption|now constructor].
    + rewrite fund_triple by assumption.
      assert (G1 := persp_unproject_project k1 (to_camera q1 c1 x) A B Z1).
      assert (G2 := persp_unproject_project k2 (to_camera q2 c2 x) C D Z2).
      set (e1 := persp_unproject_row k1 _) in *. set (e2 := persp_unproject_row k2 _) in *.
      assert (X1 : vsub x c1 = vscl (vz (to_camera q1 c1 x)) (mv (mtr (rotm q1)) e1)).
      { rewrite <- mv_vscl, G1. unfold to_camera. now rewrite orthogonal_inv_l by now apply rotm_orthogonal. }
      assert (X2 : vsub x c2 = vscl (vz (to_camera q2 c2 x)) (mv (mtr (rotm q2)) e2)).
      { rewrite <- mv_vscl, G2. unfold to_camera. now rewrite orthogonal_inv_l by now apply rotm_orthogonal. }
      replace (vsub c2 c1) with (vsub (vsub x c1) (vsub x c2)) by vring. rewrite X1, X2.
      generalize (mv (mtr (rotm q1)) e1), (mv (mtr (rotm q2)) e2), (vz (to_camera q1 c1 x)), (vz (to_camera q2 c2 x)).
      clear. vring.
  - intros p1 p2. do 4 eexists. split; [unfold cam1; now apply persp_pixel_to_world|].
    split; [unfold cam2; now apply persp_pixel_to_world|]. cbn [map].
    split; [unfold directions; cbn -[so_directions]; now rewrite so_directions_rows|].
    split; [unfold directions; cbn -[so_directions]; now rewrite so_directions_rows|].
    split; [now apply fund_triple|]. intros N. rewrite fund_triple by assumption. split.
    + intros T. now apply lines_meet.
    + generalize dependent (mv (mtr (rotm q1)) (persp_unproject_row k1 p1)).
      generalize (mv (mtr (rotm q2)) (persp_unproject_row k2 p2)). intros d2 d1 _ (s1 & s2 & E).
      assert (X : vsub c2 c1 = vsub (vscl s1 d1) (vscl s2 d2)).
      { transitivity (vsub (vadd c2 (vscl s2 d2)) (vadd c1 (vscl s2 d2))); [vring|]. rewrite <- E. vring. }
      rewrite X. vring.
Qed.
