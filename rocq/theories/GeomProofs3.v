(** * GeomProofs3.v - lemmas behind C78-C81 *)

From Coq Require Import Reals List Lra Psatz.
From Verif Require Import Scalar Linalg Bundles Extrinsics Perspective Orthographic Camera Spec SpecGeom Rows RealBase VecLemmas ExtrinsicsProofs FromViewProofs IntrinsicsProofs CameraProofs CamMatProofs GeomProofs.
Import ListNotations.
Local Open Scope R_scope.

(** ** C78: choice of world coordinates *)
Lemma moved_to_camera q q' g t c x : orthogonal g -> rotm q' = mm (rotm q) (mtr g) ->
  to_camera q' (vadd (mv g c) t) (vadd (mv g x) t) = to_camera q c x.
Proof.
  intros O E. unfold to_camera. rewrite E, mv_mm. f_equal.
  replace (vsub (vadd (mv g x) t) (vadd (mv g c) t)) with (mv g (vsub x c)) by (rewrite mv_vsub; vring).
  now apply orthogonal_inv_l.
Qed.
Lemma moved_dir q q' g v : rotm q' = mm (rotm q) (mtr g) -> mv (mtr (rotm q')) v = mv g (mv (mtr (rotm q)) v).
Proof. intros E. now rewrite E, mtr_mm, mtr_mtr, mv_mm. Qed.
Lemma moved_to_world q q' g t c y : rotm q' = mm (rotm q) (mtr g) ->
  to_world q' (vadd (mv g c) t) y = vadd (mv g (to_world q c y)) t.
Proof. intros E. unfold to_world. rewrite (moved_dir _ _ _ _ E), mv_vadd. vring. Qed.

Lemma C78_lemma q q' g t c : unit_quat q -> unit_quat q' -> orthogonal g -> rotm q' = mm (rotm q) (mtr g) ->
  let move x := vadd (mv g x) t in
  let e := frc q c in let e' := frc q' (move c) in
  (forall (I : Type) (HI : IntrinsicParameters R I) (k : I) pts,
     world_to_pixel (camera_new k e') (mkPoints (map move pts)) = world_to_pixel (camera_new k e) (mkPoints pts)) /\
  (forall k px, exists ds,
     pixel_to_world (camera_new (perspective_from k) e) px = Some (mkRayBundle ds (mkSO c) : RayBundle WorldFrame (SharedOriginRayBundle R) R) /\
     pixel_to_world (camera_new (perspective_from k) e') px = Some (mkRayBundle (map (mv g) ds) (mkSO (move c)) : RayBundle WorldFrame (SharedOriginRayBundle R) R)) /\
  (forall k px, exists cs d,
     pixel_to_world (camera_new (orthographic_from k) e) px = Some (mkRayBundle cs (mkSD d) : RayBundle WorldFrame (SharedDirectionRayBundle R) R) /\
     pixel_to_world (camera_new (orthographic_from k) e') px = Some (mkRayBundle (map move cs) (mkSD (mv g d)) : RayBundle WorldFrame (SharedDirectionRayBundle R) R)).
Proof.
  intros U U' O E move e e'. unfold e, e'. split; [|split].
  - intros I HI k pts. unfold world_to_pixel. cbn [camera_new cam_intrinsics cam_extrinsics].
    rewrite !world_to_camera_R by assumption. cbn [bind]. do 2 f_equal. rewrite map_map. apply map_ext.
    intros x. now apply moved_to_camera.
  - intros k [px]. eexists. rewrite !persp_pixel_to_world by assumption. split; [reflexivity|].
    rewrite map_map. do 2 f_equal. apply map_ext. intros p. now apply moved_dir.
  - intros k [px]. do 2 eexists. rewrite !ortho_pixel_to_world by assumption. split; [reflexivity|].
    rewrite map_map. do 2 f_equal.
    + apply map_ext. intros p. now apply moved_to_world.
    + f_equal. rewrite !forward_R by assumption. now apply moved_dir.
Qed.
(** such a [q'] exists *)
Lemma C78b_lemma q g : unit_quat q -> unit_quat g -> exists q', unit_quat q' /\ rotm q' = mm (rotm q) (mtr (rotm g)).
Proof.
  intros U G. exists (q_mul q (q_inverse g)). assert (G' := unit_quat_inverse g G).
  split; [now apply unit_quat_mul|]. now rewrite rotm_mul, rotm_inverse.
Qed.

Lemma to_camera_scale q c s x : to_camera q (vscl s c) (vscl s x) = vscl s (to_camera q c x).
Proof. unfold to_camera. rewrite <- mv_vscl. f_equal. vring. Qed.
Lemma C78c_lemma q c s pts : unit_quat q -> s <> 0 ->
  (forall k, Forall (fun x => depth q c x <> 0) pts ->
     world_to_pixel (camera_new (perspective_from k) (frc q (vscl s c))) (mkPoints (map (vscl s) pts))
     = world_to_pixel (camera_new (perspective_from k) (frc q c)) (mkPoints pts)) /\
  (forall sx sy cx cy,
     world_to_pixel (camera_new (orthographic_from (mkOP (sx / s) (sy / s) cx cy)) (frc q (vscl s c))) (mkPoints (map (vscl s) pts))
     = world_to_pixel (camera_new (orthographic_from (mkOP sx sy cx cy)) (frc q c)) (mkPoints pts)).
Proof.
  intros U S. split; intros.
  - rewrite !world_to_pixel_persp; try exact U; try exact H.
    + do 2 f_equal. rewrite map_map. apply map_ext_in. intros x I. rewrite to_camera_scale.
      rewrite Forall_forall in H. specialize (H x I). unfold depth in H.
      destruct (to_camera q c x) as [a b d]. unfold persp_pixel, vscl; cbn [vx vy vz] in *. f_equal; field; auto.
    + apply Forall_map. eapply Forall_impl; [|exact H]. intros x Z. cbv beta. rewrite to_camera_scale.
      unfold depth in Z. destruct (to_camera q c x) as [y1 y2 y3]. unfold vscl; cbn [vz] in *. now apply Rmult_integral_contrapositive_currified.
  - rewrite !world_to_pixel_ortho by exact U. do 2 f_equal. rewrite map_map. apply map_ext. intros x.
    rewrite to_camera_scale. destruct (to_camera q c x) as [y1 y2 y3]. unfold ortho_pixel, vscl. cbn. f_equal; field; auto.
Qed.

(** ** C79: moving a point sideways *)
Lemma to_camera_move q c x a b d : unit_quat q ->
  to_camera q c (vadd x (vadd (vadd (vscl a (right (frc q c))) (vscl b (up (frc q c)))) (vscl d (forward (frc q c)))))
  = vadd (to_camera q c x) (mkV3 a (- b) d).
Proof.
  intros U. rewrite right_R, up_R, forward_R by exact U. unfold to_camera.
  replace (vsub (vadd x (vadd (vadd (vscl a (mv (mtr (rotm q)) (mkV3 1 0 0))) (vscl b (mv (mtr (rotm q)) (mkV3 0 (-1) 0)))) (vscl d (mv (mtr (rotm q)) (mkV3 0 0 1))))) c)
    with (vadd (vsub x c) (mv (mtr (rotm q)) (mkV3 a (- b) d))) by (generalize (rotm q); vring).
  now rewrite mv_vadd, orthogonal_inv_r by now apply rotm_orthogonal.
Qed.
Lemma C79_lemma q c x a b : unit_quat q ->
  let e := frc q c in
  let x' := vadd x (vadd (vscl a (right e)) (vscl b (up e))) in
  depth q c x' = depth q c x /\
  depth q c x = vdot (vsub x c) (forward e) /\
  (forall k, depth q c x <> 0 -> exists p,
     world_to_pixel (camera_new (perspective_from k) e) (mkPoints [x; x']) = Some (mkPixels [p;
       mkV2 (px p + (pp_fx k * a - pp_skew k * b) / depth q c x) (py p - pp_fy k * b / depth q c x)])) /\
  (forall k, exists p,
     world_to_pixel (camera_new (orthographic_from k) e) (mkPoints [x; x']) = Some (mkPixels [p;
       mkV2 (px p + op_sx k * a) (py p - op_sy k * b)])).
Proof.
  intros U e x'.
  assert (E : to_camera q c x' = vadd (to_camera q c x) (mkV3 a (- b) 0)).
  { rewrite <- to_camera_move by exact U. unfold x', e. f_equal. rewrite vscl_0, vadd_0_r. reflexivity. }
  assert (D : depth q c x' = depth q c x) by (unfold depth; rewrite E; unfold vadd; cbn [vz]; ring).
  split; [exact D|]. split; [now apply depth_forward|]. split; intros k.
  - intros Z. eexists. unfold e. rewrite world_to_pixel_persp; [|exact U|].
    + cbn [map]. rewrite E. do 3 f_equal. unfold depth in *.
      destruct (to_camera q c x) as [y1 y2 y3]. unfold persp_pixel, vadd; cbn [vx vy vz px py] in *.
      do 2 f_equal; field; lra.
    + constructor; [exact Z|]. constructor; [|constructor]. fold (depth q c x'). now rewrite D.
  - eexists. unfold e. rewrite world_to_pixel_ortho by exact U. cbn [map]. rewrite E. do 3 f_equal.
    destruct (to_camera q c x) as [y1 y2 y3]. unfold ortho_pixel, vadd; cbn [vx vy vz px py] in *.
    do 2 f_equal; ring.
Qed.

(** ** C80: the rays of pixels go forward *)
Lemma unproject_depth q c v s : unit_quat q ->
  depth q c (vadd c (vscl s (mv (mtr (rotm q)) v))) = s * vz v.
Proof.
  intros U. unfold depth, to_camera.
  replace (vsub (vadd c (vscl s (mv (mtr (rotm q)) v))) c) with (mv (mtr (rotm q)) (vscl s v)) by (generalize (rotm q); vring).
  rewrite orthogonal_inv_r by now apply rotm_orthogonal. reflexivity.
Qed.
Lemma C80_lemma q c k px : unit_quat q ->
  let e := frc q c in
  exists rays : RayBundle WorldFrame (SharedOriginRayBundle R) R,
    pixel_to_world (camera_new (perspective_from k) e) (mkPixels px) = Some rays /\
    (exists ds, directions rays = Some ds /\ Forall (fun d => vdot d (forward e) = 1) ds) /\
    (exists pts, point_on_ray rays = Some (mkPoints pts) /\ Forall (fun x => depth q c x = 1) pts) /\
    (forall d, exists pts, point_on_ray_at_distance rays d = Some (mkPoints pts) /\
       (0 < d -> Forall (fun x => 0 < depth q c x <= d) pts) /\
       (d < 0 -> Forall (fun x => depth q c x < 0) pts)).
Proof.
  intros U e. eexists. split; [now apply persp_pixel_to_world|]. split; [|split].
  - eexists. split; [unfold directions; cbn -[so_directions]; now rewrite so_directions_rows|].
    apply Forall_map, Forall_forall. intros p _. unfold e. rewrite forward_R by exact U.
    rewrite orthogonal_dot by now apply orthogonal_mtr, rotm_orthogonal. destruct p; ru; ring.
  - eexists. split; [apply point_on_ray_so|]. cbn [rb_data rb_type so_center]. rewrite map_map.
    apply Forall_map, Forall_forall. intros p _. rewrite <- (vscl_1 (mv _ _)), unproject_depth by exact U. ru; ring.
  - intros d. eexists. split; [apply at_distance_so|]. cbn [rb_data rb_type so_center]. rewrite map_map.
    assert (L : forall p, 1 <= vlen (mv (mtr (rotm q)) (persp_unproject_row k p))).
    { intros p. rewrite rot_len by exact U.
      pose proof (vlen_sq (persp_unproject_row k p)) as S. pose proof (unproject_len k p) as S'.
      destruct (Rle_or_lt 1 (vlen (persp_unproject_row k p))) as [G|G]; [exact G|exfalso].
      assert (1 <= vdot (persp_unproject_row k p) (persp_unproject_row k p)).
      { unfold vdot. change (vz (persp_unproject_row k p)) with 1. 
        pose proof (Rle_0_sqr (vx (persp_unproject_row k p))). pose proof (Rle_0_sqr (vy (persp_unproject_row k p))). unfold Rsqr in *. lra. }
      nra. }
    split; intros D; apply Forall_map, Forall_forall; intros p _; rewrite unproject_depth by exact U;
      change (vz (persp_unproject_row k p)) with 1; rewrite Rmult_1_r; specialize (L p);
      generalize dependent (vlen (mv (mtr (rotm q)) (persp_unproject_row k p))); intros l L.
    + split; [apply Rdiv_lt_0_compat; lra|]. apply (Rmult_le_reg_r l); [lra|]. unfold Rdiv. rewrite Rmult_assoc, Rinv_l by lra. nra.
    + apply (Rmult_lt_reg_r l); [lra|]. unfold Rdiv. rewrite Rmult_assoc, Rinv_l by lra. lra.
Qed.

(** ** C81: vanishing points *)
Lemma to_camera_line q c x t d : to_camera q c (vadd x (vscl t d)) = vadd (to_camera q c x) (vscl t (mv (rotm q) d)).
Proof. unfold to_camera. generalize (rotm q). vring. Qed.
Lemma to_camera_dir q c d : to_camera q c (vadd c d) = mv (rotm q) d.
Proof. unfold to_camera. generalize (rotm q). vring. Qed.
Lemma hyp_small A y e eps : 0 <= A -> e <> 0 -> 0 < eps -> exists T, 0 <= T /\ forall t, T < t -> y + t * e <> 0 /\ A / Rabs (y + t * e) < eps.
Proof.
  intros HA E P. pose proof (Rabs_pos_lt e E) as E'. pose proof (Rabs_pos y) as Y.
  assert (0 <= A / eps) by (apply Rmult_le_pos; [exact HA|left; now apply Rinv_0_lt_compat]).
  exists ((A / eps + Rabs y) / Rabs e). 
  split; [apply Rmult_le_pos; [lra|left; now apply Rinv_0_lt_compat]|]. intros t T.
  assert (T1 : A / eps + Rabs y < t * Rabs e).
  { apply (Rmult_lt_compat_r (Rabs e)) in T; [|exact E']. unfold Rdiv in T. rewrite (Rmult_assoc _ (/ Rabs e)), Rinv_l in T by lra. unfold Rdiv. lra. }
  assert (T0 : 0 < t) by nra.
  assert (T2 : A / eps < Rabs (y + t * e)).
  { pose proof (Rabs_triang_inv (t * e) (- y)) as G. rewrite Rabs_Ropp, Rabs_mult, (Rabs_pos_eq t) in G by lra.
    replace (t * e - - y) with (y + t * e) in G by ring. lra. }
  split; [intros Z; rewrite Z, Rabs_R0 in T2; lra|].
  apply (Rmult_lt_reg_r (Rabs (y + t * e))); [lra|]. unfold Rdiv. rewrite Rmult_assoc, Rinv_l by lra.
  apply (Rmult_lt_compat_l eps) in T2; [|exact P]. replace (eps * (A / eps)) with A in T2 by (field; lra). lra.
Qed.
Lemma pdist_le a b : pdist a b <= Rabs (px a - px b) + Rabs (py a - py b).
Proof.
  unfold pdist. pose proof (Rabs_pos (px a - px b)). pose proof (Rabs_pos (py a - py b)).
  rewrite <- (sqrt_Rsqr (Rabs (px a - px b) + Rabs (py a - py b))) by lra.
  apply sqrt_le_1_alt. rewrite (Rsqr_abs (px a - px b)), (Rsqr_abs (py a - py b)). unfold Rsqr. nra.
Qed.
Lemma C81_lemma q c k x d : unit_quat q -> vdot d (forward (frc q c)) <> 0 ->
  let cam := camera_new (perspective_from k) (frc q c) in
  exists v, world_to_pixel cam (mkPoints [vadd c d]) = Some (mkPixels [v]) /\
  forall eps, 0 < eps -> exists T, forall t, T < t -> exists p,
    world_to_pixel cam (mkPoints [vadd x (vscl t d)]) = Some (mkPixels [p]) /\ pdist p v < eps.
Proof.
  intros U D cam.
  assert (E0 : vz (mv (rotm q) d) <> 0).
  { rewrite <- (to_camera_dir q c d). rewrite depth_forward by exact U.
    replace (vsub (vadd c d) c) with d by vring. exact D. }
  eexists. split.
  { unfold cam. rewrite world_to_pixel_persp; [cbn [map]; rewrite to_camera_dir; reflexivity|exact U|].
    constructor; [now rewrite to_camera_dir|constructor]. }
  intros eps P. 
  set (y := to_camera q c x). set (f := mv (rotm q) d) in *.
  set (A := (pp_fx k * vx y + pp_skew k * vy y) - (pp_fx k * vx f + pp_skew k * vy f) * vz y / vz f).
  set (B := pp_fy k * vy y - pp_fy k * vy f * vz y / vz f).
  destruct (hyp_small (Rabs A + Rabs B) (vz y) (vz f) eps ltac:(pose proof (Rabs_pos A); pose proof (Rabs_pos B); lra) E0 P) as (T & _ & HT).
  exists T. intros t Ht. destruct (HT t Ht) as (N & S). clear HT.
  assert (N' : vz (vadd y (vscl t f)) <> 0) by exact N.
  eexists. split.
  { unfold cam. rewrite world_to_pixel_persp; [cbn [map]; rewrite to_camera_line; reflexivity|exact U|].
    constructor; [rewrite to_camera_line; exact N'|constructor]. }
  fold y f. eapply Rle_lt_trans; [apply pdist_le|].
  assert (X : px (persp_pixel k (vadd y (vscl t f))) - px (persp_pixel k f) = A / (vz y + t * vz f)).
  { unfold A, persp_pixel, vadd, vscl. cbn [px vx vy vz]. clearbody y f. field. auto. }
  assert (Y : py (persp_pixel k (vadd y (vscl t f))) - py (persp_pixel k f) = B / (vz y + t * vz f)).
  { unfold B, persp_pixel, vadd, vscl. cbn [py vx vy vz]. clearbody y f. field. auto. }
  rewrite X, Y. unfold Rdiv. rewrite !Rabs_mult, Rabs_inv, <- Rmult_plus_distr_r. exact S.
Qed.
