(** * Rows.v - every batch loop of the model computes row by row

    Lemmas only; the property theorems are in PropBatch.v. *)

From Coq Require Import List Arith Lia.
From Verif Require Import Scalar Linalg Bundles Extrinsics Perspective Orthographic Camera.
Import ListNotations.

Lemma for_range_app {St} (body : nat -> St -> option St) n m k s :
  for_range k (n + m) body s =
  (s' <- for_range k n body s ;; for_range (k + n) m body s').
Proof.
  revert k s; induction n; intros k s; simpl.
  - now rewrite Nat.add_0_r.
  - destruct (body k s); simpl; [|reflexivity].
    rewrite IHn. now rewrite <- plus_n_Sm.
Qed.

Lemma for_rows {A B} (g : A -> B) (body : nat -> list B -> option (list B)) (z : B) (input : list A) :
  (forall i a pre x suf, nth_error input i = Some a -> length pre = i ->
     body i (pre ++ x :: suf) = Some (pre ++ g a :: suf)) ->
  for_range 0 (length input) body (repeat z (length input)) = Some (map g input).
Proof.
  intros H.
  assert (G : forall rest done, input = done ++ rest ->
     for_range (length done) (length rest) body (map g done ++ repeat z (length rest))
     = Some (map g done ++ map g rest)).
  { induction rest as [|a rest IH]; intros done Hin; simpl.
    - now rewrite app_nil_r.
    - rewrite (H _ a).
      + simpl. specialize (IH (done ++ [a])).
        rewrite app_length in IH; simpl in IH; rewrite Nat.add_1_r in IH.
        rewrite map_app in IH; simpl in IH.
        rewrite <- !app_assoc in IH; simpl in IH. apply IH.
        exact Hin.
      + rewrite Hin. rewrite nth_error_app2 by lia. now rewrite Nat.sub_diag.
      + now rewrite map_length. }
  exact (G input [] eq_refl).
Qed.

Lemma upd_row_mid {A} (pre : list A) x suf f i : length pre = i ->
  upd_row (pre ++ x :: suf) i f = (x' <- f x ;; Some (pre ++ x' :: suf)).
Proof.
  revert i; induction pre; intros i H; simpl in *; subst; [reflexivity|].
  rewrite IHpre by reflexivity. now destruct (f x).
Qed.

Lemma mat3_set_mid {T} (pre : list (V3 T)) x suf i j t : length pre = i ->
  mat3_set (pre ++ x :: suf) i j t = (x' <- v3_set x j t ;; Some (pre ++ x' :: suf)).
Proof. intros; unfold mat3_set; now rewrite upd_row_mid. Qed.
Lemma mat2_set_mid {T} (pre : list (V2 T)) x suf i j t : length pre = i ->
  mat2_set (pre ++ x :: suf) i j t = (x' <- v2_set x j t ;; Some (pre ++ x' :: suf)).
Proof. intros; unfold mat2_set; now rewrite upd_row_mid. Qed.

Lemma write_row_mid {T} pre (x v : V3 T) suf i : length pre = i ->
  write_row i v (pre ++ x :: suf) = Some (pre ++ v :: suf).
Proof.
  intros H. destruct v. unfold write_row; simpl.
  repeat (rewrite mat3_set_mid by exact H; simpl). reflexivity.
Qed.

Lemma mat3_get_row {T} (m : list (V3 T)) i r j : nth_error m i = Some r ->
  mat3_get m i j = v3_get r j.
Proof. intros H; unfold mat3_get; now rewrite H. Qed.
Lemma mat2_get_row {T} (m : list (V2 T)) i r j : nth_error m i = Some r ->
  mat2_get m i j = v2_get r j.
Proof. intros H; unfold mat2_get; now rewrite H. Qed.
Lemma read_row_row {T} (m : list (V3 T)) i r : nth_error m i = Some r ->
  read_row m i = Some r.
Proof. intros H; unfold read_row; rewrite !(mat3_get_row _ _ _ _ H); now destruct r. Qed.

Ltac rows_step :=
  let i := fresh "i" in let a := fresh "a" in let pre := fresh "pre" in
  let x := fresh "x" in let suf := fresh "suf" in
  let Ha := fresh "Ha" in let Hp := fresh "Hp" in
  intros i a pre x suf Ha Hp;
  simpl;
  repeat first
    [ rewrite (read_row_row _ _ _ Ha); simpl
    | rewrite Ha; simpl
    | rewrite !(mat3_get_row _ _ _ _ Ha); simpl
    | rewrite !(mat2_get_row _ _ _ _ Ha); simpl
    | rewrite (write_row_mid _ _ _ _ _ Hp); simpl
    | rewrite mat3_set_mid by exact Hp; simpl
    | rewrite mat2_set_mid by exact Hp; simpl ];
  try (destruct a); try reflexivity.

Section Rows.
Context {T : Type} {O : Ops T}.
Local Open Scope S_scope.

(** ** What one row becomes *)
Definition so_at_distance_row (c : V3 T) (distance : T) (d : V3 T) : V3 T :=
  let scale := distance / o_sqrt (vx d * vx d + vy d * vy d + vz d * vz d) in
  mkV3 (vx c + scale * vx d) (vy c + scale * vy d) (vz c + scale * vz d).
Definition sd_at_distance_row (d : V3 T) (distance : T) (c : V3 T) : V3 T :=
  let scale := distance / o_sqrt (vx d * vx d + vy d * vy d + vz d * vz d) in
  mkV3 (scale * vx d + vx c) (scale * vy d + vy c) (scale * vz d + vz c).
Definition persp_unproject_row (k : PerspectiveParams T) (p : V2 T) : V3 T :=
  let y := (py p - pp_cy k) / pp_fy k in
  mkV3 ((px p - pp_skew k * y - pp_cx k) / pp_fx k) y o_one.
Definition persp_project_row (m : M34 T) (p : V3 T) : V2 T :=
  let rst := m34_mulv m (v3_to_homogeneous p) in
  mkV2 (vx rst / vz rst) (vy rst / vz rst).
Definition ortho_unproject_row (k : OrthographicParams T) (p : V2 T) : V3 T :=
  mkV3 ((px p - op_cx k) / op_sx k) ((py p - op_cy k) / op_sy k) o_zero.
Definition ortho_project_row (k : OrthographicParams T) (p : V3 T) : V2 T :=
  mkV2 (vx p * op_sx k + op_cx k) (vy p * op_sy k + op_cy k).

(** ** Batch = map *)
Lemma so_directions_rows b (d : list (V3 T)) : so_directions b d = Some d.
Proof.
  unfold so_directions. transitivity (Some (map (fun x : V3 T => x) d)); [|now rewrite map_id].
  apply for_rows. rows_step.
Qed.
Lemma so_centers_rows b (d : list (V3 T)) :
  so_centers b d = Some (map (fun _ => so_center b) d).
Proof. unfold so_centers. apply for_rows. rows_step. Qed.
Lemma so_point_on_ray_rows F b (d : list (V3 T)) :
  so_point_on_ray F b d = Some (mkPoints (map (v3_add (so_center b)) d)).
Proof.
  unfold so_point_on_ray, zeros3. erewrite for_rows; [reflexivity|].
  destruct b as [[cx cy cz]]. rows_step.
Qed.
Lemma so_at_distance_rows F b (d : list (V3 T)) dist :
  so_point_on_ray_at_distance F b d dist
  = Some (mkPoints (map (so_at_distance_row (so_center b) dist) d)).
Proof.
  unfold so_point_on_ray_at_distance, zeros3.
  rewrite (for_rows (so_at_distance_row (so_center b) dist)); [reflexivity|].
  destruct b as [[cx cy cz]]. rows_step.
Qed.
Lemma so_to_pose_rows F b p (d : list (V3 T)) :
  so_to_pose F b p d
  = Some (mkRayBundle (map (iso_transform_vector p) d)
            (mkSO (iso_transform_point p (so_center b)))).
Proof.
  unfold so_to_pose, zeros3.
  rewrite (for_rows (iso_transform_vector p)); [reflexivity|]. rows_step.
Qed.

Lemma sd_directions_rows b (d : list (V3 T)) :
  sd_directions b d = Some (map (fun _ => sd_direction b) d).
Proof. unfold sd_directions. apply for_rows. rows_step. Qed.
Lemma sd_centers_rows b (d : list (V3 T)) : sd_centers b d = Some d.
Proof.
  unfold sd_centers. transitivity (Some (map (fun x : V3 T => x) d)); [|now rewrite map_id].
  apply for_rows. rows_step.
Qed.
Lemma sd_point_on_ray_rows F b (d : list (V3 T)) :
  sd_point_on_ray F b d = Some (mkPoints (map (v3_add (sd_direction b)) d)).
Proof.
  unfold sd_point_on_ray, zeros3. erewrite for_rows; [reflexivity|].
  destruct b as [[cx cy cz]]. rows_step.
Qed.
Lemma sd_at_distance_rows F b (d : list (V3 T)) dist :
  sd_point_on_ray_at_distance F b d dist
  = Some (mkPoints (map (sd_at_distance_row (sd_direction b) dist) d)).
Proof.
  unfold sd_point_on_ray_at_distance, zeros3.
  rewrite (for_rows (sd_at_distance_row (sd_direction b) dist)); [reflexivity|].
  destruct b as [[cx cy cz]]. rows_step.
Qed.
Lemma sd_to_pose_rows F b p (d : list (V3 T)) :
  sd_to_pose F b p d
  = Some (mkRayBundle (map (iso_transform_point p) d)
            (mkSD (iso_transform_vector p (sd_direction b)))).
Proof.
  unfold sd_to_pose, zeros3.
  rewrite (for_rows (iso_transform_point p)); [reflexivity|]. rows_step.
Qed.

Lemma transform_rows_rows p (d : list (V3 T)) :
  transform_rows p d = Some (map (iso_transform_point p) d).
Proof. unfold transform_rows. apply for_rows. rows_step. Qed.
Lemma world_to_camera_rows e (w : Points WorldFrame T) :
  world_to_camera e w
  = Some (mkPoints (map (iso_transform_point (c_pose (e_cache e))) (pts_data w))).
Proof. unfold world_to_camera. now rewrite transform_rows_rows. Qed.
Lemma camera_to_world_rows e (w : Points CameraFrame T) :
  camera_to_world e w
  = Some (mkPoints (map (iso_transform_point (c_pose_inv (e_cache e))) (pts_data w))).
Proof. unfold camera_to_world. now rewrite transform_rows_rows. Qed.

Lemma persp_pixel_to_camera_rows k (p : Pixels T) :
  persp_pixel_to_camera k p
  = Some (mkRayBundle (map (persp_unproject_row (ip_params k)) (pix_data p))
            so_new_shared_zero_origin).
Proof.
  unfold persp_pixel_to_camera, zeros3; simpl.
  rewrite (for_rows (persp_unproject_row (ip_params k))); [reflexivity|]. rows_step.
Qed.
Lemma persp_camera_to_pixel_rows k (p : Points CameraFrame T) :
  persp_camera_to_pixel k p
  = Some (mkPixels (map (persp_project_row (ip_cache_p k)) (pts_data p))).
Proof.
  unfold persp_camera_to_pixel, zeros2.
  rewrite (for_rows (persp_project_row (ip_cache_p k))); [reflexivity|]. rows_step.
Qed.
Lemma ortho_pixel_to_camera_rows k (p : Pixels T) :
  ortho_pixel_to_camera k p
  = Some (mkRayBundle (map (ortho_unproject_row (io_params k)) (pix_data p))
            sd_new_plusz_shared_direction).
Proof.
  unfold ortho_pixel_to_camera, zeros3; simpl.
  rewrite (for_rows (ortho_unproject_row (io_params k))); [reflexivity|]. rows_step.
Qed.
Lemma ortho_camera_to_pixel_rows k (p : Points CameraFrame T) :
  ortho_camera_to_pixel k p
  = Some (mkPixels (map (ortho_project_row (io_params k)) (pts_data p))).
Proof.
  unfold ortho_camera_to_pixel, zeros2.
  rewrite (for_rows (ortho_project_row (io_params k))); [reflexivity|]. rows_step.
Qed.

Lemma persp_world_to_pixel_rows (k : IntrinsicParametersPerspective T) e p :
  world_to_pixel (mkCamera k e) p
  = Some (mkPixels (map (fun x => persp_project_row (ip_cache_p k)
                                    (iso_transform_point (c_pose (e_cache e)) x)) (pts_data p))).
Proof.
  unfold world_to_pixel; cbn [cam_extrinsics cam_intrinsics].
  rewrite world_to_camera_rows. cbn [bind].
  change (camera_to_pixel k) with (persp_camera_to_pixel k).
  rewrite persp_camera_to_pixel_rows; cbn [pts_data]. now rewrite map_map.
Qed.
Lemma ortho_world_to_pixel_rows (k : IntrinsicParametersOrthographic T) e p :
  world_to_pixel (mkCamera k e) p
  = Some (mkPixels (map (fun x => ortho_project_row (io_params k)
                                    (iso_transform_point (c_pose (e_cache e)) x)) (pts_data p))).
Proof.
  unfold world_to_pixel; cbn [cam_extrinsics cam_intrinsics].
  rewrite world_to_camera_rows. cbn [bind].
  change (camera_to_pixel k) with (ortho_camera_to_pixel k).
  rewrite ortho_camera_to_pixel_rows; cbn [pts_data]. now rewrite map_map.
Qed.
Lemma persp_pixel_to_world_rows (k : IntrinsicParametersPerspective T) e p :
  pixel_to_world (mkCamera k e) p
  = Some (mkRayBundle
      (map (fun x => iso_transform_vector (c_pose_inv (e_cache e))
                       (persp_unproject_row (ip_params k) x)) (pix_data p))
      (mkSO (iso_transform_point (c_pose_inv (e_cache e)) v3_zero))).
Proof.
  unfold pixel_to_world; cbn [cam_extrinsics cam_intrinsics].
  change (pixel_to_camera k) with (persp_pixel_to_camera k).
  rewrite persp_pixel_to_camera_rows. cbn [bind].
  unfold ray_camera_to_world, to_pose; cbn [rb_data rb_type].
  change (b_to_pose (Bundle := Perspective_Bundle)) with (@so_to_pose T O).
  rewrite so_to_pose_rows. now rewrite map_map.
Qed.
Lemma ortho_pixel_to_world_rows (k : IntrinsicParametersOrthographic T) e p :
  pixel_to_world (mkCamera k e) p
  = Some (mkRayBundle
      (map (fun x => iso_transform_point (c_pose_inv (e_cache e))
                       (ortho_unproject_row (io_params k) x)) (pix_data p))
      (mkSD (iso_transform_vector (c_pose_inv (e_cache e)) (mkV3 o_zero o_zero o_one)))).
Proof.
  unfold pixel_to_world; cbn [cam_extrinsics cam_intrinsics].
  change (pixel_to_camera k) with (ortho_pixel_to_camera k).
  rewrite ortho_pixel_to_camera_rows. cbn [bind].
  unfold ray_camera_to_world, to_pose; cbn [rb_data rb_type].
  change (b_to_pose (Bundle := Orthographic_Bundle)) with (@sd_to_pose T O).
  rewrite sd_to_pose_rows. now rewrite map_map.
Qed.

End Rows.

Create HintDb rows.
#[export] Hint Rewrite @so_directions_rows @so_centers_rows @so_point_on_ray_rows
  @so_at_distance_rows @so_to_pose_rows @sd_directions_rows @sd_centers_rows
  @sd_point_on_ray_rows @sd_at_distance_rows @sd_to_pose_rows
  @world_to_camera_rows @camera_to_world_rows
  @persp_pixel_to_camera_rows @persp_camera_to_pixel_rows
  @ortho_pixel_to_camera_rows @ortho_camera_to_pixel_rows
  @persp_world_to_pixel_rows @ortho_world_to_pixel_rows
  @persp_pixel_to_world_rows @ortho_pixel_to_world_rows : rows.
