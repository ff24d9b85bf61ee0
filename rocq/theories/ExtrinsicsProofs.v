(** * ExtrinsicsProofs.v - lemmas behind C03-C09 *)

From Coq Require Import Reals List Lra Psatz.
From Verif Require Import Scalar Linalg Bundles Extrinsics Spec Rows RealBase VecLemmas.
Import ListNotations.
Local Open Scope R_scope.

Notation frc := from_rotation_and_camcenter (only parsing).

Lemma frc_accessors {T} {O : Ops T} (q : Quat T) c :
  camcenter (frc q c) = c /\ iso_rot (pose (frc q c)) = q /\ e_rquat (frc q c) = q.
Proof. repeat split. Qed.

(** ** Row functions of the pose *)
Lemma pose_row q c x : unit_quat q ->
  iso_transform_point (c_pose (e_cache (frc q c))) x = to_camera q c x.
Proof.
  intros U. unfold iso_transform_point; simpl.
  rewrite q_rotate_R, rotmat_R by assumption.
  tospec. unfold to_camera. rewrite mv_vsub. vring.
Qed.
Lemma pose_inv_trans q c : unit_quat q ->
  iso_trans (c_pose_inv (e_cache (frc q c))) = c.
Proof.
  intros U. simpl. rewrite q_rotate_R, rotm_inverse, rotmat_R by assumption.
  tospec.
  transitivity (mv (mtr (rotm q)) (mv (rotm q) c)); [f_equal; vring|].
  apply orthogonal_inv_l, rotm_orthogonal, U.
Qed.
Lemma pose_inv_row q c y : unit_quat q ->
  iso_transform_point (c_pose_inv (e_cache (frc q c))) y = to_world q c y.
Proof.
  intros U. unfold iso_transform_point. rewrite pose_inv_trans by assumption.
  tospec. rewrite q_rotate_R. simpl. now rewrite rotm_inverse.
Qed.
Lemma pose_inv_vec q c y : unit_quat q ->
  iso_transform_vector (c_pose_inv (e_cache (frc q c))) y = mv (mtr (rotm q)) y.
Proof. intros U. unfold iso_transform_vector. simpl. now rewrite q_rotate_R, rotm_inverse. Qed.

Lemma world_to_camera_R q c pts : unit_quat q ->
  world_to_camera (frc q c) (mkPoints pts) = Some (mkPoints (map (to_camera q c) pts)).
Proof.
  intros U. rewrite world_to_camera_rows. do 2 f_equal. apply map_ext.
  intros; now apply pose_row.
Qed.
Lemma camera_to_world_R q c pts : unit_quat q ->
  camera_to_world (frc q c) (mkPoints pts) = Some (mkPoints (map (to_world q c) pts)).
Proof.
  intros U. rewrite camera_to_world_rows. do 2 f_equal. apply map_ext.
  intros; now apply pose_inv_row.
Qed.

Lemma to_world_to_camera q c x : unit_quat q -> to_world q c (to_camera q c x) = x.
Proof.
  intros U. unfold to_world, to_camera.
  rewrite orthogonal_inv_l by now apply rotm_orthogonal. apply vadd_vsub.
Qed.
Lemma to_camera_to_world q c x : unit_quat q -> to_camera q c (to_world q c x) = x.
Proof.
  intros U. unfold to_world, to_camera.
  rewrite vsub_vadd. now apply orthogonal_inv_r, rotm_orthogonal.
Qed.
Lemma to_world_O q c : to_world q c vO = c.
Proof. unfold to_world. now rewrite mv_O, vadd_0_l. Qed.
Lemma to_camera_c q c : to_camera q c c = vO.
Proof. unfold to_camera. now rewrite vsub_diag, mv_O. Qed.
Lemma to_camera_len q c x y : unit_quat q ->
  vdist (to_camera q c x) (to_camera q c y) = vdist x y.
Proof.
  intros U. unfold vdist, to_camera. rewrite <- mv_vsub, orthogonal_len by now apply rotm_orthogonal.
  f_equal. vring.
Qed.

Lemma C03_lemma q c : unit_quat q ->
  (forall pts, world_to_camera (frc q c) (mkPoints pts)
               = Some (mkPoints (map (fun x => mv (rotm q) (vsub x c)) pts))) /\
  rotation (frc q c) = rotm q /\
  translation (frc q c) = vopp (mv (rotm q) c) /\
  left33 (matrix (frc q c)) = rotm q /\
  col4 (matrix (frc q c)) = vopp (mv (rotm q) c).
Proof.
  intros U. pose proof (rotmat_R q U) as E. split; [|split; [|split; [|split]]].
  - intros; now apply world_to_camera_R.
  - exact E.
  - unfold translation; simpl. tospec. now rewrite E.
  - transitivity (q_to_rotation_matrix q); [reflexivity|exact E].
  - transitivity (vopp (mv (q_to_rotation_matrix q) c)); [reflexivity|now rewrite E].
Qed.

Lemma C04_lemma q c : unit_quat q ->
  is_rotation (rotation (frc q c)) /\
  (forall x y, exists x' y',
     world_to_camera (frc q c) (mkPoints [x; y]) = Some (mkPoints [x'; y']) /\
     vdist x' y' = vdist x y) /\
  (forall o a b d, exists o' a' b' d',
     world_to_camera (frc q c) (mkPoints [o; a; b; d]) = Some (mkPoints [o'; a'; b'; d']) /\
     triple (vsub a' o') (vsub b' o') (vsub d' o') = triple (vsub a o) (vsub b o) (vsub d o)).
Proof.
  intros U. split; [|split].
  - unfold rotation; simpl. rewrite rotmat_R by assumption. now apply rotm_rotation.
  - intros x y. do 2 eexists. rewrite world_to_camera_R by assumption. split; [reflexivity|].
    now apply to_camera_len.
  - intros o a b d. do 4 eexists. rewrite world_to_camera_R by assumption. split; [reflexivity|].
    unfold to_camera. rewrite <- !mv_vsub, triple_mv, rotm_det, Rmult_1_l by assumption.
    replace (vsub (vsub a c) (vsub o c)) with (vsub a o) by vring.
    replace (vsub (vsub b c) (vsub o c)) with (vsub b o) by vring.
    now replace (vsub (vsub d c) (vsub o c)) with (vsub d o) by vring.
Qed.

Lemma map_id_ext {A} (f : A -> A) l : (forall x, f x = x) -> map f l = l.
Proof. intros H. rewrite <- (map_id l) at 2. now apply map_ext. Qed.

Lemma C05_lemma q c : unit_quat q ->
  (forall pts, exists cam, world_to_camera (frc q c) (mkPoints pts) = Some cam /\
                           camera_to_world (frc q c) cam = Some (mkPoints pts)) /\
  (forall pts, exists w, camera_to_world (frc q c) (mkPoints pts) = Some w /\
                         world_to_camera (frc q c) w = Some (mkPoints pts)).
Proof.
  intros U; split; intros pts; eexists; split.
  - now apply world_to_camera_R.
  - rewrite camera_to_world_R, map_map, map_id_ext; auto.
    intros; now apply to_world_to_camera.
  - now apply camera_to_world_R.
  - rewrite world_to_camera_R, map_map, map_id_ext; auto.
    intros; now apply to_camera_to_world.
Qed.

Lemma single_point_inj {F T} (a b : V3 T) :
  Some (mkPoints (Coords := F) [a]) = Some (mkPoints [b]) -> a = b.
Proof. congruence. Qed.

Lemma C06_lemma q c : unit_quat q ->
  world_to_camera (frc q c) (mkPoints [camcenter (frc q c)]) = Some (mkPoints [vO]) /\
  camera_to_world (frc q c) (mkPoints [vO]) = Some (mkPoints [camcenter (frc q c)]) /\
  (forall x, world_to_camera (frc q c) (mkPoints [x]) = Some (mkPoints [vO]) -> x = c).
Proof.
  intros U; split; [|split].
  - rewrite world_to_camera_R by assumption; simpl. unfold camcenter; simpl. now rewrite to_camera_c.
  - rewrite camera_to_world_R by assumption; simpl. now rewrite to_world_O.
  - intros x. rewrite world_to_camera_R by assumption; simpl. intros E. apply single_point_inj in E.
    rewrite <- (to_world_to_camera q c x U), E. apply to_world_O.
Qed.

Lemma C07_lemma :
  (forall q c, unit_quat q -> from_pose (pose (frc q c)) = frc q c) /\
  (forall p : Iso R, unit_quat (iso_rot p) -> pose (from_pose p) = p).
Proof.
  split.
  - intros q c U. unfold from_pose. cbn [pose iso_rot iso_trans]. f_equal.
    unfold pose; simpl. rewrite rotmat_R by now apply unit_quat_inverse.
    rewrite rotmat_R, rotm_inverse by assumption. tospec.
    rewrite mv_vopp, orthogonal_inv_l by now apply rotm_orthogonal. vring.
  - intros [q t] U. simpl in U. unfold pose, from_pose; simpl. f_equal.
    rewrite (rotmat_R (q_inverse q)) by now apply unit_quat_inverse.
    rewrite rotmat_R, rotm_inverse by assumption. tospec.
    rewrite mv_vopp, orthogonal_inv_r by now apply rotm_orthogonal. vring.
Qed.

(** ** q and -q *)
Lemma rotm_qopp q : rotm (qopp q) = rotm q.
Proof. destruct q; apply M33_eq; ru; ring. Qed.
Lemma q_rotate_qopp q v : q_rotate (qopp q) v = q_rotate q v.
Proof. now rewrite !q_rotate_R, rotm_qopp. Qed.
Lemma rotmat_qopp q : q_to_rotation_matrix (qopp q) = q_to_rotation_matrix q.
Proof. destruct q; apply M33_eq; ru; ring. Qed.
Lemma q_inverse_qopp q : q_inverse (qopp q) = qopp (q_inverse q).
Proof. destruct q; apply Quat_eq; ru; ring. Qed.
Lemma iso_inverse_qopp q t v :
  iso_transform_point (iso_inverse (mkIso (qopp q) t)) v
  = iso_transform_point (iso_inverse (mkIso q t)) v.
Proof.
  unfold iso_transform_point, iso_inverse; simpl.
  now rewrite !q_inverse_qopp, !q_rotate_qopp.
Qed.
Lemma iso_inverse_qopp_vec q t v :
  iso_transform_vector (iso_inverse (mkIso (qopp q) t)) v
  = iso_transform_vector (iso_inverse (mkIso q t)) v.
Proof.
  unfold iso_transform_vector, iso_inverse; simpl.
  now rewrite !q_inverse_qopp, !q_rotate_qopp.
Qed.

Lemma C08_lemma (q : Quat R) c :
  (forall p, world_to_camera (frc (qopp q) c) p = world_to_camera (frc q c) p) /\
  (forall p, camera_to_world (frc (qopp q) c) p = camera_to_world (frc q c) p) /\
  (forall b : RayBundle CameraFrame (SharedOriginRayBundle R) R,
     ray_camera_to_world (frc (qopp q) c) b = ray_camera_to_world (frc q c) b) /\
  (forall b : RayBundle CameraFrame (SharedDirectionRayBundle R) R,
     ray_camera_to_world (frc (qopp q) c) b = ray_camera_to_world (frc q c) b) /\
  matrix (frc (qopp q) c) = matrix (frc q c) /\
  rotation (frc (qopp q) c) = rotation (frc q c) /\
  translation (frc (qopp q) c) = translation (frc q c) /\
  forward (frc (qopp q) c) = forward (frc q c) /\
  up (frc (qopp q) c) = up (frc q c) /\
  right (frc (qopp q) c) = right (frc q c).
Proof.
  repeat split.
  - intros. rewrite !world_to_camera_rows. do 2 f_equal. apply map_ext; intros.
    unfold iso_transform_point; simpl. now rewrite q_rotate_qopp, rotmat_qopp.
  - intros. rewrite !camera_to_world_rows. do 2 f_equal. apply map_ext; intros.
    simpl. now rewrite rotmat_qopp, iso_inverse_qopp.
  - intros. unfold ray_camera_to_world, to_pose; simpl. rewrite !so_to_pose_rows.
    rewrite rotmat_qopp, iso_inverse_qopp. do 2 f_equal. apply map_ext; intros.
    now rewrite iso_inverse_qopp_vec.
  - intros. unfold ray_camera_to_world, to_pose; simpl. rewrite !sd_to_pose_rows.
    rewrite rotmat_qopp, iso_inverse_qopp_vec. do 2 f_equal. apply map_ext; intros.
    now rewrite iso_inverse_qopp.
  - unfold matrix, from_rotation_and_camcenter; cbn [e_cache c_qt]. now rewrite rotmat_qopp.
  - unfold rotation; simpl. now rewrite rotmat_qopp.
  - unfold translation; simpl. now rewrite rotmat_qopp.
  - unfold forward, lookdir; simpl. now rewrite rotmat_qopp, iso_inverse_qopp.
  - unfold up, lookdir; simpl. now rewrite rotmat_qopp, iso_inverse_qopp.
  - unfold right, lookdir; simpl. now rewrite rotmat_qopp, iso_inverse_qopp.
Qed.

(** ** Frame vectors *)
Lemma lookdir_R q c d : unit_quat q ->
  lookdir (frc q c) d = vunit (mv (mtr (rotm q)) d).
Proof.
  intros U. unfold lookdir. rewrite pose_inv_row by assumption.
  rewrite v3_normalize_R. tospec. f_equal. unfold to_world, camcenter; simpl. apply vsub_vadd.
Qed.
Lemma lookdir_unit q c d : unit_quat q -> vdot d d = 1 ->
  lookdir (frc q c) d = mv (mtr (rotm q)) d.
Proof.
  intros U D. rewrite lookdir_R by assumption. apply vunit_id.
  rewrite orthogonal_dot; auto. now apply orthogonal_mtr, rotm_orthogonal.
Qed.
Lemma forward_R q c : unit_quat q -> forward (frc q c) = mv (mtr (rotm q)) (mkV3 0 0 1).
Proof. intros; apply lookdir_unit; auto. ru; ring. Qed.
Lemma up_R q c : unit_quat q -> up (frc q c) = mv (mtr (rotm q)) (mkV3 0 (-1) 0).
Proof. intros; apply lookdir_unit; auto. ru; ring. Qed.
Lemma right_R q c : unit_quat q -> right (frc q c) = mv (mtr (rotm q)) (mkV3 1 0 0).
Proof. intros; apply lookdir_unit; auto. ru; ring. Qed.

Lemma C09_lemma q c : unit_quat q ->
  let f := forward (frc q c) in let r := right (frc q c) in let u := up (frc q c) in
  vlen f = 1 /\ vlen r = 1 /\ vlen u = 1 /\
  vdot f r = 0 /\ vdot f u = 0 /\ vdot r u = 0 /\
  vcross r f = u /\
  (forall p, exists o z x y,
     camera_to_world (frc q c)
       (mkPoints [p; vadd p (mkV3 0 0 1); vadd p (mkV3 1 0 0); vadd p (mkV3 0 (-1) 0)])
     = Some (mkPoints [o; z; x; y]) /\
     vsub z o = f /\ vsub x o = r /\ vsub y o = u).
Proof.
  intros U f r u. unfold f, r, u. rewrite forward_R, right_R, up_R by assumption.
  pose proof (orthogonal_mtr _ (rotm_orthogonal q U)) as Orth.
  repeat split.
  - rewrite orthogonal_len by assumption. apply vlen_1. ru; ring.
  - rewrite orthogonal_len by assumption. apply vlen_1. ru; ring.
  - rewrite orthogonal_len by assumption. apply vlen_1. ru; ring.
  - rewrite orthogonal_dot by assumption. ru; ring.
  - rewrite orthogonal_dot by assumption. ru; ring.
  - rewrite orthogonal_dot by assumption. ru; ring.
  - rewrite rotation_cross by now apply is_rotation_mtr, rotm_rotation. f_equal. vring.
  - intros p. do 4 eexists. rewrite camera_to_world_R by assumption. split; [reflexivity|].
    unfold to_world. rewrite !mv_vadd. repeat split; vring.
Qed.
