(** * PropCamera.v - property theorems C26-C29 *)

From Coq Require Import List Reals Lra.
From Verif Require Import Scalar Linalg Bundles Extrinsics Perspective Orthographic Camera Spec RealBase VecLemmas ExtrinsicsProofs CameraProofs.
Import ListNotations.
Local Open Scope R_scope.

(** The pose and intrinsics used in the examples. *)
Definition ex_q : Quat R := mkQuat 0 0 (3/5) (4/5).
Definition ex_c : V3 R := mkV3 1 2 3.
Lemma ex_q_unit : unit_quat ex_q.
Proof. unfold ex_q; ru_spec; lra. Qed.
Definition ex_k : PerspectiveParams R := mkPP 100 102 (1/10) 321 239.
Definition ex_ok : OrthographicParams R := mkOP 100 102 321 239.
Lemma ex_fx : pp_fx ex_k <> 0. Proof. simpl; lra. Qed.
Lemma ex_fy : pp_fy ex_k <> 0. Proof. simpl; lra. Qed.

(** C26: taking points on rays commutes with the change of frame. *)
Theorem C26_rays_move_with_points q c : unit_quat q ->
  (forall b : RayBundle CameraFrame (SharedOriginRayBundle R) R,
   exists wb ds ds',
     ray_camera_to_world (from_rotation_and_camcenter q c) b = Some wb /\
     directions b = Some ds /\ directions wb = Some ds' /\ map vlen ds' = map vlen ds /\
     (exists pc pw, point_on_ray b = Some pc /\ camera_to_world (from_rotation_and_camcenter q c) pc = Some pw /\
                    point_on_ray wb = Some pw) /\
     (Forall (fun d => d <> vO) ds -> forall dist,
      exists pc pw, point_on_ray_at_distance b dist = Some pc /\ camera_to_world (from_rotation_and_camcenter q c) pc = Some pw /\
                    point_on_ray_at_distance wb dist = Some pw)) /\
  (forall b : RayBundle CameraFrame (SharedDirectionRayBundle R) R,
   exists wb ds ds',
     ray_camera_to_world (from_rotation_and_camcenter q c) b = Some wb /\
     directions b = Some ds /\ directions wb = Some ds' /\ map vlen ds' = map vlen ds /\
     (exists pc pw, point_on_ray b = Some pc /\ camera_to_world (from_rotation_and_camcenter q c) pc = Some pw /\
                    point_on_ray wb = Some pw) /\
     (Forall (fun d => d <> vO) ds -> forall dist,
      exists pc pw, point_on_ray_at_distance b dist = Some pc /\ camera_to_world (from_rotation_and_camcenter q c) pc = Some pw /\
                    point_on_ray_at_distance wb dist = Some pw)).
Proof. exact (C26_lemma q c). Qed.
Print Assumptions C26_rays_move_with_points.

Example C26_case :
  let b := mkRayBundle (Coords := CameraFrame) [mkV3 0 0 2; mkV3 1 1 1] (mkSO (mkV3 0 0 1)) in
  exists wb pc pw, ray_camera_to_world (from_rotation_and_camcenter ex_q ex_c) b = Some wb /\
    point_on_ray_at_distance b 4 = Some pc /\
    camera_to_world (from_rotation_and_camcenter ex_q ex_c) pc = Some pw /\
    point_on_ray_at_distance wb 4 = Some pw.
Proof.
  intros b. destruct (proj1 (C26_rays_move_with_points ex_q ex_c ex_q_unit) b)
    as (wb & ds & ds' & H1 & H2 & H3 & H4 & _ & H6).
  assert (N : Forall (fun d => d <> vO) ds).
  { injection H2 as <-. repeat constructor; unfold vO; intros E; apply V3_inv in E; simpl in E; lra. }
  destruct (H6 N 4) as (pc & pw & A & B & C). now exists wb, pc, pw.
Qed.

(** C27: for every implementation of the trait, a round trip in the camera frame
    gives one in the world. *)
Theorem C27_any_intrinsics_roundtrip (I : Type) (k : I) (c2p : I -> Points CameraFrame R -> option (Pixels R)) q c :
  unit_quat q ->
  (forall p2c : I -> Pixels R -> option (RayBundle CameraFrame (SharedOriginRayBundle R) R),
   let HI := {| BundleType := SharedOriginRayBundle R; pixel_to_camera := p2c; camera_to_pixel := c2p |} in
   (forall px, exists rays pts, p2c k px = Some rays /\ point_on_ray rays = Some pts /\ c2p k pts = Some px) ->
   forall px, exists (rays : RayBundle WorldFrame (SharedOriginRayBundle R) R) pts,
     @pixel_to_world R I HI SharedOrigin_Bundle (camera_new k (from_rotation_and_camcenter q c)) px = Some rays /\
     point_on_ray rays = Some pts /\ @world_to_pixel R _ I HI (camera_new k (from_rotation_and_camcenter q c)) pts = Some px) /\
  (forall p2c : I -> Pixels R -> option (RayBundle CameraFrame (SharedDirectionRayBundle R) R),
   let HI := {| BundleType := SharedDirectionRayBundle R; pixel_to_camera := p2c; camera_to_pixel := c2p |} in
   (forall px, exists rays pts, p2c k px = Some rays /\ point_on_ray rays = Some pts /\ c2p k pts = Some px) ->
   forall px, exists (rays : RayBundle WorldFrame (SharedDirectionRayBundle R) R) pts,
     @pixel_to_world R I HI SharedDirection_Bundle (camera_new k (from_rotation_and_camcenter q c)) px = Some rays /\
     point_on_ray rays = Some pts /\ @world_to_pixel R _ I HI (camera_new k (from_rotation_and_camcenter q c)) pts = Some px).
Proof. exact (C27_lemma I k c2p q c). Qed.
Print Assumptions C27_any_intrinsics_roundtrip.

(** An implementation which is neither of the two in the crate: pixels are
    mirrored left to right. *)
Definition mirror_p2c (_ : unit) (pxs : Pixels R) : option (RayBundle CameraFrame (SharedOriginRayBundle R) R) :=
  Some (mkRayBundle (map (fun p => mkV3 (- px p) (py p) 1) (pix_data pxs)) (mkSO (mkV3 0 0 0))).
Definition mirror_c2p (_ : unit) (pts : Points CameraFrame R) : option (Pixels R) :=
  Some (mkPixels (map (fun p => mkV2 (- (vx p / vz p)) (vy p / vz p)) (pts_data pts))).
Example C27_case px :
  let HI := {| BundleType := SharedOriginRayBundle R; pixel_to_camera := mirror_p2c; camera_to_pixel := mirror_c2p |} in
  exists (rays : RayBundle WorldFrame (SharedOriginRayBundle R) R) pts,
    @pixel_to_world R unit HI SharedOrigin_Bundle (camera_new tt (from_rotation_and_camcenter ex_q ex_c)) px = Some rays /\
    point_on_ray rays = Some pts /\
    @world_to_pixel R _ unit HI (camera_new tt (from_rotation_and_camcenter ex_q ex_c)) pts = Some px.
Proof.
  apply (proj1 (C27_any_intrinsics_roundtrip unit tt mirror_c2p ex_q ex_c ex_q_unit)).
  intros [l]. do 2 eexists. split; [reflexivity|]. split; [apply point_on_ray_so|].
  unfold mirror_c2p. cbn [pts_data rb_data rb_type so_center]. do 2 f_equal. rewrite !map_map.
  apply map_id_ext. intros [u v]. apply V2_eq; ru_spec; field.
Qed.

(** C28: where the rays of a camera come from. *)
Theorem C28_ray_origins q c : unit_quat q ->
  (forall k px, exists rays : RayBundle WorldFrame (SharedOriginRayBundle R) R,
     pixel_to_world (camera_new (perspective_from k) (from_rotation_and_camcenter q c)) (mkPixels px) = Some rays /\
     centers rays = Some (map (fun _ => camcenter (from_rotation_and_camcenter q c)) px)) /\
  (forall k px, exists (rays : RayBundle WorldFrame (SharedDirectionRayBundle R) R) cs,
     pixel_to_world (camera_new (orthographic_from k) (from_rotation_and_camcenter q c)) (mkPixels px) = Some rays /\
     directions rays = Some (map (fun _ => forward (from_rotation_and_camcenter q c)) px) /\
     centers rays = Some cs /\ length cs = length px /\
     Forall (fun x => vdot (vsub x (camcenter (from_rotation_and_camcenter q c))) (forward (from_rotation_and_camcenter q c)) = 0) cs).
Proof. exact (C28_lemma q c). Qed.
Print Assumptions C28_ray_origins.

Example C28_case : exists rays : RayBundle WorldFrame (SharedOriginRayBundle R) R,
  pixel_to_world (camera_new (perspective_from ex_k) (from_rotation_and_camcenter ex_q ex_c))
    (mkPixels [mkV2 1 2; mkV2 3 4]) = Some rays /\ centers rays = Some [mkV3 1 2 3; mkV3 1 2 3].
Proof. exact (proj1 (C28_ray_origins ex_q ex_c ex_q_unit) ex_k [mkV2 1 2; mkV2 3 4]). Qed.

(** C29: the round trips of whole cameras. *)
Theorem C29_camera_roundtrips q c : unit_quat q ->
  (forall k, pp_fx k <> 0 -> pp_fy k <> 0 ->
   let cam := camera_new (perspective_from k) (from_rotation_and_camcenter q c) in
   (forall px, exists rays : RayBundle WorldFrame (SharedOriginRayBundle R) R,
      pixel_to_world cam (mkPixels px) = Some rays /\
      (exists pts, point_on_ray rays = Some pts /\ world_to_pixel cam pts = Some (mkPixels px)) /\
      (forall d, d <> 0 -> exists pts, point_on_ray_at_distance rays d = Some pts /\
                                       world_to_pixel cam pts = Some (mkPixels px))) /\
   (forall x, 0 < vdot (vsub x c) (forward (from_rotation_and_camcenter q c)) ->
      exists px (rays : RayBundle WorldFrame (SharedOriginRayBundle R) R),
        world_to_pixel cam (mkPoints [x]) = Some px /\ pixel_to_world cam px = Some rays /\
        point_on_ray_at_distance rays (vdist x c) = Some (mkPoints [x]))) /\
  (forall k, op_sx k <> 0 -> op_sy k <> 0 ->
   let cam := camera_new (orthographic_from k) (from_rotation_and_camcenter q c) in
   (forall px, exists rays : RayBundle WorldFrame (SharedDirectionRayBundle R) R,
      pixel_to_world cam (mkPixels px) = Some rays /\
      (exists pts, point_on_ray rays = Some pts /\ world_to_pixel cam pts = Some (mkPixels px)) /\
      (forall d, exists pts, point_on_ray_at_distance rays d = Some pts /\
                             world_to_pixel cam pts = Some (mkPixels px))) /\
   (forall x, exists px (rays : RayBundle WorldFrame (SharedDirectionRayBundle R) R),
        world_to_pixel cam (mkPoints [x]) = Some px /\ pixel_to_world cam px = Some rays /\
        point_on_ray_at_distance rays (vdot (vsub x c) (forward (from_rotation_and_camcenter q c))) = Some (mkPoints [x]))).
Proof. exact (C29_lemma q c). Qed.
Print Assumptions C29_camera_roundtrips.

Example C29_case : exists px (rays : RayBundle WorldFrame (SharedOriginRayBundle R) R),
  let cam := camera_new (perspective_from ex_k) (from_rotation_and_camcenter ex_q ex_c) in
  world_to_pixel cam (mkPoints [mkV3 2 4 5]) = Some px /\ pixel_to_world cam px = Some rays /\
  point_on_ray_at_distance rays 3 = Some (mkPoints [mkV3 2 4 5]).
Proof.
  destruct (proj2 (proj1 (C29_camera_roundtrips ex_q ex_c ex_q_unit) ex_k ex_fx ex_fy) (mkV3 2 4 5))
    as (px & rays & H1 & H2 & H3).
  - rewrite forward_R by apply ex_q_unit. unfold ex_q, ex_c; ru_spec; lra.
  - exists px, rays. split; [exact H1|]. split; [exact H2|]. rewrite <- H3. f_equal.
    symmetry. apply vlen_unique; [lra|unfold ex_c; ru_spec; lra].
Qed.

