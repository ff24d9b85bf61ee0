(** * BatchProofs.v - lemmas behind C01, C02, C25 *)

From Coq Require Import List.
From Verif Require Import Scalar Linalg Bundles Extrinsics Perspective Orthographic Camera Spec Rows.
Import ListNotations.

Lemma map_total {A B} (f : list A -> option (list B)) (g : A -> B) :
  (forall x, f x = Some (map g x)) -> total_same_rows f.
Proof. intros H x; exists (map g x); split; [apply H|apply map_length]. Qed.
Lemma map_rowwise {A B} (f : list A -> option (list B)) (g : A -> B) :
  (forall x, f x = Some (map g x)) -> rowwise f.
Proof.
  intros H a b; exists (map g a), (map g b); repeat split; rewrite ?H; auto.
  now rewrite map_app.
Qed.

Ltac batch_red := unfold camera_new, ray_camera_to_world, to_pose,
  point_on_ray, point_on_ray_at_distance, directions, centers,
  b_point_on_ray, b_point_on_ray_at_distance, b_to_pose, b_directions, b_centers,
  SharedOrigin_Bundle, SharedDirection_Bundle, Perspective_Bundle, Orthographic_Bundle, Perspective_Intrinsics, Orthographic_Intrinsics,
  BundleType, option_map, bind in *.
Ltac batch := intros; unfold camera_new; try (progress autorewrite with rows; cbn [option_map rb_data rb_type pts_data pix_data]; reflexivity);
  unfold pixel_to_camera, camera_to_pixel; batch_red;
  repeat first [progress autorewrite with rows | progress cbn [bind option_map rb_data rb_type pts_data pix_data
    cam_intrinsics cam_extrinsics camera_new] | rewrite map_map]; reflexivity.
Ltac batch_total := eapply map_total; batch.
Ltac batch_rowwise := eapply map_rowwise; batch.

Section Generic.
Context {T : Type} {O : Ops T}.

Lemma batch_total_lemma :
  (forall e, total_same_rows (fun d => option_map pts_data (world_to_camera e (mkPoints d)))) /\
  (forall e, total_same_rows (fun d => option_map pts_data (camera_to_world e (mkPoints d)))) /\
  (forall k : IntrinsicParametersPerspective T,
    total_same_rows (fun d => option_map pix_data (camera_to_pixel k (mkPoints d))) /\
    total_same_rows (fun d => option_map rb_data (pixel_to_camera k (mkPixels d)))) /\
  (forall k : IntrinsicParametersOrthographic T,
    total_same_rows (fun d => option_map pix_data (camera_to_pixel k (mkPoints d))) /\
    total_same_rows (fun d => option_map rb_data (pixel_to_camera k (mkPixels d)))) /\
  (forall (k : IntrinsicParametersPerspective T) (e : ExtrinsicParameters T),
    total_same_rows (fun d => option_map pix_data (world_to_pixel (camera_new k e) (mkPoints d))) /\
    total_same_rows (fun d => option_map rb_data (pixel_to_world (camera_new k e) (mkPixels d)))) /\
  (forall (k : IntrinsicParametersOrthographic T) (e : ExtrinsicParameters T),
    total_same_rows (fun d => option_map pix_data (world_to_pixel (camera_new k e) (mkPoints d))) /\
    total_same_rows (fun d => option_map rb_data (pixel_to_world (camera_new k e) (mkPixels d)))) /\
  (forall F (b : SharedOriginRayBundle T) e dist,
    total_same_rows (fun d => directions (mkRayBundle (Coords := F) d b)) /\
    total_same_rows (fun d => centers (mkRayBundle (Coords := F) d b)) /\
    total_same_rows (fun d => option_map pts_data (point_on_ray (mkRayBundle (Coords := F) d b))) /\
    total_same_rows (fun d => option_map pts_data (point_on_ray_at_distance (mkRayBundle (Coords := F) d b) dist)) /\
    total_same_rows (fun d => option_map rb_data (ray_camera_to_world e (mkRayBundle d b)))) /\
  (forall F (b : SharedDirectionRayBundle T) e dist,
    total_same_rows (fun d => directions (mkRayBundle (Coords := F) d b)) /\
    total_same_rows (fun d => centers (mkRayBundle (Coords := F) d b)) /\
    total_same_rows (fun d => option_map pts_data (point_on_ray (mkRayBundle (Coords := F) d b))) /\
    total_same_rows (fun d => option_map pts_data (point_on_ray_at_distance (mkRayBundle (Coords := F) d b) dist)) /\
    total_same_rows (fun d => option_map rb_data (ray_camera_to_world e (mkRayBundle d b)))).
Proof.
  repeat split; intros; try batch_total.
  - apply (map_total _ (fun x => x)); intros; batch_red; autorewrite with rows; now rewrite map_id.
  - apply (map_total _ (fun x => x)); intros; batch_red; autorewrite with rows; now rewrite map_id.
Qed.

Lemma batch_rowwise_lemma :
  (forall e, rowwise (fun d => option_map pts_data (world_to_camera e (mkPoints d)))) /\
  (forall e, rowwise (fun d => option_map pts_data (camera_to_world e (mkPoints d)))) /\
  (forall k : IntrinsicParametersPerspective T,
    rowwise (fun d => option_map pix_data (camera_to_pixel k (mkPoints d))) /\
    rowwise (fun d => option_map rb_data (pixel_to_camera k (mkPixels d))) /\
    same_for_all (fun d => option_map rb_type (pixel_to_camera k (mkPixels d)))) /\
  (forall k : IntrinsicParametersOrthographic T,
    rowwise (fun d => option_map pix_data (camera_to_pixel k (mkPoints d))) /\
    rowwise (fun d => option_map rb_data (pixel_to_camera k (mkPixels d))) /\
    same_for_all (fun d => option_map rb_type (pixel_to_camera k (mkPixels d)))) /\
  (forall (k : IntrinsicParametersPerspective T) (e : ExtrinsicParameters T),
    rowwise (fun d => option_map pix_data (world_to_pixel (camera_new k e) (mkPoints d))) /\
    rowwise (fun d => option_map rb_data (pixel_to_world (camera_new k e) (mkPixels d))) /\
    same_for_all (fun d => option_map rb_type (pixel_to_world (camera_new k e) (mkPixels d)))) /\
  (forall (k : IntrinsicParametersOrthographic T) (e : ExtrinsicParameters T),
    rowwise (fun d => option_map pix_data (world_to_pixel (camera_new k e) (mkPoints d))) /\
    rowwise (fun d => option_map rb_data (pixel_to_world (camera_new k e) (mkPixels d))) /\
    same_for_all (fun d => option_map rb_type (pixel_to_world (camera_new k e) (mkPixels d)))) /\
  (forall F (b : SharedOriginRayBundle T) e dist,
    rowwise (fun d => directions (mkRayBundle (Coords := F) d b)) /\
    rowwise (fun d => centers (mkRayBundle (Coords := F) d b)) /\
    rowwise (fun d => option_map pts_data (point_on_ray (mkRayBundle (Coords := F) d b))) /\
    rowwise (fun d => option_map pts_data (point_on_ray_at_distance (mkRayBundle (Coords := F) d b) dist)) /\
    rowwise (fun d => option_map rb_data (ray_camera_to_world e (mkRayBundle d b))) /\
    same_for_all (fun d => option_map rb_type (ray_camera_to_world e (mkRayBundle d b)))) /\
  (forall F (b : SharedDirectionRayBundle T) e dist,
    rowwise (fun d => directions (mkRayBundle (Coords := F) d b)) /\
    rowwise (fun d => centers (mkRayBundle (Coords := F) d b)) /\
    rowwise (fun d => option_map pts_data (point_on_ray (mkRayBundle (Coords := F) d b))) /\
    rowwise (fun d => option_map pts_data (point_on_ray_at_distance (mkRayBundle (Coords := F) d b) dist)) /\
    rowwise (fun d => option_map rb_data (ray_camera_to_world e (mkRayBundle d b))) /\
    same_for_all (fun d => option_map rb_type (ray_camera_to_world e (mkRayBundle d b)))).
Proof.
  repeat split; intros; try batch_rowwise; try (eexists; batch).
  - apply (map_rowwise _ (fun x => x)); intros; batch_red; autorewrite with rows; now rewrite map_id.
  - apply (map_rowwise _ (fun x => x)); intros; batch_red; autorewrite with rows; now rewrite map_id.
Qed.

(** Accessors of ray bundles. *)
Lemma accessors_lemma F :
  (forall (b : SharedOriginRayBundle T) d,
     centers (mkRayBundle (Coords := F) d b) = Some (map (fun _ => so_center b) d) /\
     directions (mkRayBundle (Coords := F) d b) = Some d) /\
  (forall (b : SharedDirectionRayBundle T) d,
     centers (mkRayBundle (Coords := F) d b) = Some d /\
     directions (mkRayBundle (Coords := F) d b) = Some (map (fun _ => sd_direction b) d)) /\
  (forall (b : SharedOriginRayBundle T) r, exists c v,
     centers (mkRayBundle (Coords := F) [r] b) = Some [c] /\
     directions (mkRayBundle (Coords := F) [r] b) = Some [v] /\
     to_single_ray (mkRayBundle (Coords := F) [r] b) = Some (mkRay c v)) /\
  (forall (b : SharedDirectionRayBundle T) r, exists c v,
     centers (mkRayBundle (Coords := F) [r] b) = Some [c] /\
     directions (mkRayBundle (Coords := F) [r] b) = Some [v] /\
     to_single_ray (mkRayBundle (Coords := F) [r] b) = Some (mkRay c v)).
Proof.
  repeat split; intros; try batch.
  - exists (so_center b), r. repeat split; batch.
  - exists r, (sd_direction b). repeat split; batch.
Qed.
End Generic.
