(** * CameraProofs.v - lemmas behind C26-C29 *)

From Coq Require Import Reals List Lra Psatz.
From Verif Require Import Scalar Linalg Bundles Extrinsics Perspective Orthographic Camera Spec Rows RealBase VecLemmas ExtrinsicsProofs FromViewProofs IntrinsicsProofs.
Import ListNotations.
Local Open Scope R_scope.

Lemma to_world_vadd q c a b : to_world q c (vadd a b) = vadd (to_world q c a) (mv (mtr (rotm q)) b).
Proof. unfold to_world. rewrite mv_vadd. vring. Qed.
Lemma rot_len q v : unit_quat q -> vlen (mv (mtr (rotm q)) v) = vlen v.
Proof. intros U. apply orthogonal_len. now apply orthogonal_mtr, rotm_orthogonal. Qed.
Lemma rot_nonzero q v : unit_quat q -> v <> vO -> mv (mtr (rotm q)) v <> vO.
Proof. intros U H E. apply H, vlen_0. rewrite <- (rot_len q v U), E. apply vlen_O. Qed.

(** ** Moving bundles *)
Lemma ray_to_world_so q c (b : RayBundle CameraFrame (SharedOriginRayBundle R) R) : unit_quat q ->
  ray_camera_to_world (frc q c) b
  = Some (mkRayBundle (map (mv (mtr (rotm q))) (rb_data b)) (mkSO (to_world q c (so_center (rb_type b))))).
Proof.
  intros U. unfold ray_camera_to_world, to_pose. cbn -[so_to_pose from_rotation_and_camcenter].
  rewrite so_to_pose_rows. rewrite pose_inv_row by assumption. do 2 f_equal.
  apply map_ext. intros; now apply pose_inv_vec.
Qed.
Lemma ray_to_world_sd q c (b : RayBundle CameraFrame (SharedDirectionRayBundle R) R) : unit_quat q ->
  ray_camera_to_world (frc q c) b
  = Some (mkRayBundle (map (to_world q c) (rb_data b)) (mkSD (mv (mtr (rotm q)) (sd_direction (rb_type b))))).
Proof.
  intros U. unfold ray_camera_to_world, to_pose. cbn -[sd_to_pose from_rotation_and_camcenter].
  rewrite sd_to_pose_rows. rewrite pose_inv_vec by assumption. do 2 f_equal.
  apply map_ext. intros; now apply pose_inv_row.
Qed.

Lemma point_on_ray_so {C} (b : RayBundle C (SharedOriginRayBundle R) R) :
  point_on_ray b = Some (mkPoints (map (vadd (so_center (rb_type b))) (rb_data b))).
Proof. unfold point_on_ray. cbn -[so_point_on_ray]. now rewrite so_point_on_ray_rows. Qed.
Lemma point_on_ray_sd {C} (b : RayBundle C (SharedDirectionRayBundle R) R) :
  point_on_ray b = Some (mkPoints (map (vadd (sd_direction (rb_type b))) (rb_data b))).
Proof. unfold point_on_ray. cbn -[sd_point_on_ray]. now rewrite sd_point_on_ray_rows. Qed.
Lemma at_distance_so {C} (b : RayBundle C (SharedOriginRayBundle R) R) d :
  point_on_ray_at_distance b d
  = Some (mkPoints (map (fun v => vadd (so_center (rb_type b)) (vscl (d / vlen v) v)) (rb_data b))).
Proof.
  unfold point_on_ray_at_distance. cbn -[so_point_on_ray_at_distance]. rewrite so_at_distance_rows.
  f_equal; f_equal; try reflexivity; apply map_ext; intros; apply so_at_distance_R.
Qed.
Lemma at_distance_sd {C} (b : RayBundle C (SharedDirectionRayBundle R) R) d :
  point_on_ray_at_distance b d
  = Some (mkPoints (map (fun v => vadd v (vscl (d / vlen (sd_direction (rb_type b))) (sd_direction (rb_type b))))
                       (rb_data b))).
Proof.
  unfold point_on_ray_at_distance. cbn -[sd_point_on_ray_at_distance]. rewrite sd_at_distance_rows.
  f_equal; f_equal; try reflexivity; apply map_ext; intros; apply sd_at_distance_R.
Qed.

(** All four commutations, with the camera frame result written out. *)
Lemma so_points_commute q c (b : RayBundle CameraFrame (SharedOriginRayBundle R) R) : unit_quat q ->
  exists wb pc pw,
    ray_camera_to_world (frc q c) b = Some wb /\ point_on_ray b = Some pc /\
    camera_to_world (frc q c) pc = Some pw /\ point_on_ray wb = Some pw.
Proof.
  intros U. do 3 eexists. split; [now apply ray_to_world_so|]. split; [apply point_on_ray_so|].
  split; [now apply camera_to_world_R|]. rewrite point_on_ray_so. cbn [rb_type rb_data so_center].
  do 2 f_equal. rewrite !map_map. apply map_ext. intros v. now rewrite to_world_vadd.
Qed.
Lemma so_distance_commute q c (b : RayBundle CameraFrame (SharedOriginRayBundle R) R) d : unit_quat q ->
  exists wb pc pw,
    ray_camera_to_world (frc q c) b = Some wb /\ point_on_ray_at_distance b d = Some pc /\
    camera_to_world (frc q c) pc = Some pw /\ point_on_ray_at_distance wb d = Some pw.
Proof.
  intros U. do 3 eexists. split; [now apply ray_to_world_so|]. split; [apply at_distance_so|].
  split; [now apply camera_to_world_R|]. rewrite at_distance_so. cbn [rb_type rb_data so_center].
  do 2 f_equal. rewrite !map_map. apply map_ext. intros v. now rewrite to_world_vadd, mv_vscl, rot_len.
Qed.
Lemma sd_points_commute q c (b : RayBundle CameraFrame (SharedDirectionRayBundle R) R) : unit_quat q ->
  exists wb pc pw,
    ray_camera_to_world (frc q c) b = Some wb /\ point_on_ray b = Some pc /\
    camera_to_world (frc q c) pc = Some pw /\ point_on_ray wb = Some pw.
Proof.
  intros U. do 3 eexists. split; [now apply ray_to_world_sd|]. split; [apply point_on_ray_sd|].
  split; [now apply camera_to_world_R|]. rewrite point_on_ray_sd. cbn [rb_type rb_data sd_direction].
  do 2 f_equal. rewrite !map_map. apply map_ext. intros v.
  rewrite vadd_comm, (vadd_comm (sd_direction _)), to_world_vadd. reflexivity.
Qed.
Lemma sd_distance_commute q c (b : RayBundle CameraFrame (SharedDirectionRayBundle R) R) d : unit_quat q ->
  exists wb pc pw,
    ray_camera_to_world (frc q c) b = Some wb /\ point_on_ray_at_distance b d = Some pc /\
    camera_to_world (frc q c) pc = Some pw /\ point_on_ray_at_distance wb d = Some pw.
Proof.
  intros U. do 3 eexists. split; [now apply ray_to_world_sd|]. split; [apply at_distance_sd|].
  split; [now apply camera_to_world_R|]. rewrite at_distance_sd. cbn [rb_type rb_data sd_direction].
  do 2 f_equal. rewrite !map_map. apply map_ext. intros v. now rewrite to_world_vadd, mv_vscl, rot_len.
Qed.

Lemma C26_lemma q c : unit_quat q ->
  (forall b : RayBundle CameraFrame (SharedOriginRayBundle R) R,
   exists wb ds ds',
     ray_camera_to_world (frc q c) b = Some wb /\
     directions b = Some ds /\ directions wb = Some ds' /\ map vlen ds' = map vlen ds /\
     (exists pc pw, point_on_ray b = Some pc /\ camera_to_world (frc q c) pc = Some pw /\
                    point_on_ray wb = Some pw) /\
     (Forall (fun d => d <> vO) ds -> forall dist,
      exists pc pw, point_on_ray_at_distance b dist = Some pc /\ camera_to_world (frc q c) pc = Some pw /\
                    point_on_ray_at_distance wb dist = Some pw)) /\
  (forall b : RayBundle CameraFrame (SharedDirectionRayBundle R) R,
   exists wb ds ds',
     ray_camera_to_world (frc q c) b = Some wb /\
     directions b = Some ds /\ directions wb = Some ds' /\ map vlen ds' = map vlen ds /\
     (exists pc pw, point_on_ray b = Some pc /\ camera_to_world (frc q c) pc = Some pw /\
                    point_on_ray wb = Some pw) /\
     (Forall (fun d => d <> vO) ds -> forall dist,
      exists pc pw, point_on_ray_at_distance b dist = Some pc /\ camera_to_world (frc q c) pc = Some pw /\
                    point_on_ray_at_distance wb dist = Some pw)).
Proof.
  intros U. split; intros b.
  - do 3 eexists. split; [now apply ray_to_world_so|].
    split; [unfold directions; cbn -[so_directions]; now rewrite so_directions_rows|].
    split; [unfold directions; cbn -[so_directions]; now rewrite so_directions_rows|].
    split; [rewrite map_map; apply map_ext; intros; now apply rot_len|].
    split; [|intros _ dist].
    + destruct (so_points_commute q c b U) as (wb & pc & pw & H1 & H2 & H3 & H4).
      rewrite ray_to_world_so in H1 by assumption. injection H1 as <-. now exists pc, pw.
    + destruct (so_distance_commute q c b dist U) as (wb & pc & pw & H1 & H2 & H3 & H4).
      rewrite ray_to_world_so in H1 by assumption. injection H1 as <-. now exists pc, pw.
  - do 3 eexists. split; [now apply ray_to_world_sd|].
    split; [unfold directions; cbn -[sd_directions]; now rewrite sd_directions_rows|].
    split; [unfold directions; cbn -[sd_directions]; now rewrite sd_directions_rows|].
    split; [rewrite !map_map; cbn [sd_direction]; apply map_ext; intros; now apply rot_len|].
    split; [|intros _ dist].
    + destruct (sd_points_commute q c b U) as (wb & pc & pw & H1 & H2 & H3 & H4).
      rewrite ray_to_world_sd in H1 by assumption. injection H1 as <-. now exists pc, pw.
    + destruct (sd_distance_commute q c b dist U) as (wb & pc & pw & H1 & H2 & H3 & H4).
      rewrite ray_to_world_sd in H1 by assumption. injection H1 as <-. now exists pc, pw.
Qed.

(** ** Any intrinsics *)
Lemma C27_lemma (I : Type) (k : I) (c2p : I -> Points CameraFrame R -> option (Pixels R)) q c :
  unit_quat q ->
  (forall p2c : I -> Pixels R -> option (RayBundle CameraFrame (SharedOriginRayBundle R) R),
   let HI := {| BundleType := SharedOriginRayBundle R; pixel_to_camera := p2c; camera_to_pixel := c2p |} in
   (forall px, exists rays pts, p2c k px = Some rays /\ point_on_ray rays = Some pts /\ c2p k pts = Some px) ->
   forall px, exists (rays : RayBundle WorldFrame (SharedOriginRayBundle R) R) pts,
     @pixel_to_world R I HI SharedOrigin_Bundle (camera_new k (frc q c)) px = Some rays /\
     point_on_ray rays = Some pts /\ @world_to_pixel R _ I HI (camera_new k (frc q c)) pts = Some px) /\
  (forall p2c : I -> Pixels R -> option (RayBundle CameraFrame (SharedDirectionRayBundle R) R),
   let HI := {| BundleType := SharedDirectionRayBundle R; pixel_to_camera := p2c; camera_to_pixel := c2p |} in
   (forall px, exists rays pts, p2c k px = Some rays /\ point_on_ray rays = Some pts /\ c2p k pts = Some px) ->
   forall px, exists (rays : RayBundle WorldFrame (SharedDirectionRayBundle R) R) pts,
     @pixel_to_world R I HI SharedDirection_Bundle (camera_new k (frc q c)) px = Some rays /\
     point_on_ray rays = Some pts /\ @world_to_pixel R _ I HI (camera_new k (frc q c)) pts = Some px).
Proof.
  intros U. split; intros p2c HI H px; destruct (H px) as (rays & pts & H1 & H2 & H3).
  - destruct (so_points_commute q c rays U) as (wb & pc & pw & G1 & G2 & G3 & G4).
    rewrite H2 in G2. injection G2 as <-. exists wb, pw.
    split; [unfold pixel_to_world; cbn -[ray_camera_to_world]; now rewrite H1|]. split; [exact G4|].
    unfold world_to_pixel. cbn -[world_to_camera]. destruct pts as [pts].
    rewrite camera_to_world_R in G3 by assumption. injection G3 as <-.
    rewrite world_to_camera_R by assumption. rewrite map_map, map_id_ext; [exact H3|].
    intros; now apply to_camera_to_world.
  - destruct (sd_points_commute q c rays U) as (wb & pc & pw & G1 & G2 & G3 & G4).
    rewrite H2 in G2. injection G2 as <-. exists wb, pw.
    split; [unfold pixel_to_world; cbn -[ray_camera_to_world]; now rewrite H1|]. split; [exact G4|].
    unfold world_to_pixel. cbn -[world_to_camera]. destruct pts as [pts].
    rewrite camera_to_world_R in G3 by assumption. injection G3 as <-.
    rewrite world_to_camera_R by assumption. rewrite map_map, map_id_ext; [exact H3|].
    intros; now apply to_camera_to_world.
Qed.

(** ** Where the rays come from *)
Lemma pixel_to_world_unfold {I} {HI : IntrinsicParameters R I} {HB : Bundle R BundleType} (k : I) e px rays :
  pixel_to_camera k px = Some rays ->
  pixel_to_world (camera_new k e) px = ray_camera_to_world e rays.
Proof. intros H. unfold pixel_to_world. cbn [camera_new cam_intrinsics cam_extrinsics]. now rewrite H. Qed.
Lemma persp_pixel_to_world k q c px : unit_quat q ->
  pixel_to_world (camera_new (perspective_from k) (frc q c)) (mkPixels px)
  = Some (mkRayBundle (map (fun p => mv (mtr (rotm q)) (persp_unproject_row k p)) px) (mkSO c)
          : RayBundle WorldFrame (SharedOriginRayBundle R) R).
Proof.
  intros U. erewrite pixel_to_world_unfold by exact (persp_pixel_to_camera_rows _ _).
  rewrite ray_to_world_so by assumption. cbn [rb_data rb_type so_center ip_params perspective_from pix_data].
  rewrite map_map. do 3 f_equal. unfold to_world. destruct c; apply V3_eq; ru; ring.
Qed.
Lemma ortho_pixel_to_world k q c px : unit_quat q ->
  pixel_to_world (camera_new (orthographic_from k) (frc q c)) (mkPixels px)
  = Some (mkRayBundle (map (fun p => to_world q c (ortho_unproject_row k p)) px) (mkSD (forward (frc q c)))
          : RayBundle WorldFrame (SharedDirectionRayBundle R) R).
Proof.
  intros U. erewrite pixel_to_world_unfold by exact (ortho_pixel_to_camera_rows _ _).
  rewrite ray_to_world_sd by assumption. rewrite forward_R by assumption.
  cbn [rb_data rb_type sd_direction io_params orthographic_from pix_data]. rewrite map_map. reflexivity.
Qed.
Lemma depth_forward q c x : unit_quat q -> vz (to_camera q c x) = vdot (vsub x c) (forward (frc q c)).
Proof. intros U. rewrite forward_R by assumption. unfold to_camera. destruct q, c, x; ru_spec; ring. Qed.

Lemma C28_lemma q c : unit_quat q ->
  (forall k px, exists rays : RayBundle WorldFrame (SharedOriginRayBundle R) R,
     pixel_to_world (camera_new (perspective_from k) (frc q c)) (mkPixels px) = Some rays /\
     centers rays = Some (map (fun _ => camcenter (frc q c)) px)) /\
  (forall k px, exists (rays : RayBundle WorldFrame (SharedDirectionRayBundle R) R) cs,
     pixel_to_world (camera_new (orthographic_from k) (frc q c)) (mkPixels px) = Some rays /\
     directions rays = Some (map (fun _ => forward (frc q c)) px) /\
     centers rays = Some cs /\ length cs = length px /\
     Forall (fun x => vdot (vsub x (camcenter (frc q c))) (forward (frc q c)) = 0) cs).
Proof.
  intros U. split; intros k px.
  - eexists. split; [now apply persp_pixel_to_world|].
    unfold centers. cbn -[so_centers]. rewrite so_centers_rows. now rewrite map_map.
  - do 2 eexists. split; [now apply ortho_pixel_to_world|].
    split; [unfold directions; cbn -[sd_directions forward]; rewrite sd_directions_rows; now rewrite map_map|].
    split; [unfold centers; cbn -[sd_centers]; now rewrite sd_centers_rows|].
    split; [now rewrite map_length|]. apply Forall_map, Forall_forall. intros p _.
    change (camcenter (frc q c)) with c. rewrite <- depth_forward by assumption.
    rewrite to_camera_to_world by assumption. reflexivity.
Qed.

(** ** Round trips of whole cameras *)
Lemma world_to_pixel_back {I} {HI : IntrinsicParameters R I} (k : I) q c pc pw : unit_quat q ->
  camera_to_world (frc q c) pc = Some pw ->
  world_to_pixel (camera_new k (frc q c)) pw = camera_to_pixel k pc.
Proof.
  intros U H. destruct pc as [pts]. rewrite camera_to_world_R in H by assumption. injection H as <-.
  unfold world_to_pixel. cbn -[world_to_camera]. rewrite world_to_camera_R by assumption.
  rewrite map_map, map_id_ext; [reflexivity|]. intros; now apply to_camera_to_world.
Qed.
Lemma world_to_pixel_one {I} {HI : IntrinsicParameters R I} (k : I) q c x : unit_quat q ->
  world_to_pixel (camera_new k (frc q c)) (mkPoints [x]) = camera_to_pixel k (mkPoints [to_camera q c x]).
Proof.
  intros U. unfold world_to_pixel. cbn -[world_to_camera]. now rewrite world_to_camera_R by assumption.
Qed.

Lemma C29_lemma q c : unit_quat q ->
  (forall k, pp_fx k <> 0 -> pp_fy k <> 0 ->
   let cam := camera_new (perspective_from k) (frc q c) in
   (forall px, exists rays : RayBundle WorldFrame (SharedOriginRayBundle R) R,
      pixel_to_world cam (mkPixels px) = Some rays /\
      (exists pts, point_on_ray rays = Some pts /\ world_to_pixel cam pts = Some (mkPixels px)) /\
      (forall d, d <> 0 -> exists pts, point_on_ray_at_distance rays d = Some pts /\
                                       world_to_pixel cam pts = Some (mkPixels px))) /\
   (forall x, 0 < vdot (vsub x c) (forward (frc q c)) ->
      exists px (rays : RayBundle WorldFrame (SharedOriginRayBundle R) R),
        world_to_pixel cam (mkPoints [x]) = Some px /\ pixel_to_world cam px = Some rays /\
        point_on_ray_at_distance rays (vdist x c) = Some (mkPoints [x]))) /\
  (forall k, op_sx k <> 0 -> op_sy k <> 0 ->
   let cam := camera_new (orthographic_from k) (frc q c) in
   (forall px, exists rays : RayBundle WorldFrame (SharedDirectionRayBundle R) R,
      pixel_to_world cam (mkPixels px) = Some rays /\
      (exists pts, point_on_ray rays = Some pts /\ world_to_pixel cam pts = Some (mkPixels px)) /\
      (forall d, exists pts, point_on_ray_at_distance rays d = Some pts /\
                             world_to_pixel cam pts = Some (mkPixels px))) /\
   (forall x, exists px (rays : RayBundle WorldFrame (SharedDirectionRayBundle R) R),
        world_to_pixel cam (mkPoints [x]) = Some px /\ pixel_to_world cam px = Some rays /\
        point_on_ray_at_distance rays (vdot (vsub x c) (forward (frc q c))) = Some (mkPoints [x]))).
Proof.
  intros U. split; intros k A B cam.
  - split.
    + intros px. destruct (C14_lemma k px A B) as (rays & H1 & (pts & H2 & H3) & H4).
      destruct (so_points_commute q c rays U) as (wb & pc & pw & G1 & G2 & G3 & G4).
      rewrite H2 in G2. injection G2 as <-. exists wb.
      split; [unfold cam; now rewrite (pixel_to_world_unfold _ _ _ _ H1)|].
      split; [exists pw; split; [exact G4|]; unfold cam; now rewrite (world_to_pixel_back _ q c pts)|].
      intros d Hd. destruct (H4 d Hd) as (pts' & H5 & H6).
      destruct (so_distance_commute q c rays d U) as (wb' & pc & pw' & K1 & K2 & K3 & K4).
      rewrite G1 in K1. injection K1 as <-. rewrite H5 in K2. injection K2 as <-.
      exists pw'. split; [exact K4|]. unfold cam. now rewrite (world_to_pixel_back _ q c pts').
    + intros x Hx. rewrite <- depth_forward in Hx by assumption.
      assert (Z : vz (to_camera q c x) <> 0) by lra.
      destruct (C15_lemma k (to_camera q c x) A B Z) as (px & dir & rays & H1 & H2 & _ & _ & _ & H3).
      specialize (H3 Hx).
      destruct (so_distance_commute q c rays (vlen (to_camera q c x)) U) as (wb & pc & pw & G1 & G2 & G3 & G4).
      rewrite H3 in G2. injection G2 as <-. rewrite camera_to_world_R in G3 by assumption. injection G3 as <-.
      exists px, wb. split; [unfold cam; now rewrite world_to_pixel_one|].
      split; [unfold cam; now rewrite (pixel_to_world_unfold _ _ _ _ H2)|].
      cbn [map] in G4. rewrite to_world_to_camera in G4 by assumption.
      rewrite <- G4. f_equal. unfold vdist, to_camera. symmetry. apply orthogonal_len. now apply rotm_orthogonal.
  - split.
    + intros px. destruct (proj1 (C22_lemma k A B) px) as (rays & H1 & (pts & H2 & H3) & H4).
      destruct (sd_points_commute q c rays U) as (wb & pc & pw & G1 & G2 & G3 & G4).
      rewrite H2 in G2. injection G2 as <-. exists wb.
      split; [unfold cam; now rewrite (pixel_to_world_unfold _ _ _ _ H1)|].
      split; [exists pw; split; [exact G4|]; unfold cam; now rewrite (world_to_pixel_back _ q c pts)|].
      intros d. destruct (H4 d) as (pts' & H5 & H6).
      destruct (sd_distance_commute q c rays d U) as (wb' & pc & pw' & K1 & K2 & K3 & K4).
      rewrite G1 in K1. injection K1 as <-. rewrite H5 in K2. injection K2 as <-.
      exists pw'. split; [exact K4|]. unfold cam. now rewrite (world_to_pixel_back _ q c pts').
    + intros x. destruct (proj2 (C22_lemma k A B) (to_camera q c x)) as (px & rays & H1 & H2 & _ & _ & H3).
      destruct (sd_distance_commute q c rays (vz (to_camera q c x)) U) as (wb & pc & pw & G1 & G2 & G3 & G4).
      rewrite H3 in G2. injection G2 as <-. rewrite camera_to_world_R in G3 by assumption. injection G3 as <-.
      exists px, wb. split; [unfold cam; now rewrite world_to_pixel_one|].
      split; [unfold cam; now rewrite (pixel_to_world_unfold _ _ _ _ H2)|].
      cbn [map] in G4. rewrite to_world_to_camera in G4 by assumption.
      rewrite <- depth_forward by assumption. exact G4.
Qed.
