(** * PropBatch.v - property theorems C01, C02, C25 *)

From Coq Require Import List Reals.
From Verif Require Import Scalar Linalg Bundles Extrinsics Perspective Orthographic Camera Spec BatchProofs.
Import ListNotations.

(** C01: every batch operation returns normally with one output row per input row,
    for every scalar type. *)
Theorem C01_batch_total {T} {O : Ops T} :
  (forall e, total_same_rows (fun d => option_map pts_data (world_to_camera e (mkPoints d)))) /\
  (forall e, total_same_rows (fun d => option_map pts_data (camera_to_world e (mkPoints d)))) /\
  (forall k : IntrinsicParametersPerspective T,
    total_same_rows (fun d => option_map pix_data (camera_to_pixel k (mkPoints d))) /\
    total_same_rows (fun d => option_map rb_data (pixel_to_camera k (mkPixels d)))) /\
  (forall k : IntrinsicParametersOrthographic T,
    total_same_rows (fun d => option_map pix_data (camera_to_pixel k (mkPoints d))) /\
    total_same_rows (fun d => option_map rb_data (pixel_to_camera k (mkPixels d)))) /\
  (forall (k : IntrinsicParametersPerspective T) (e : ExtrinsicParameters T),
    total_same_rows (fun d => option_map pix_data (world_to_pixel (camera_new k e) (mkPoints d))) /\
    total_same_rows (fun d => option_map rb_data (pixel_to_world (camera_new k e) (mkPixels d)))) /\
  (forall (k : IntrinsicParametersOrthographic T) (e : ExtrinsicParameters T),
    total_same_rows (fun d => option_map pix_data (world_to_pixel (camera_new k e) (mkPoints d))) /\
    total_same_rows (fun d => option_map rb_data (pixel_to_world (camera_new k e) (mkPixels d)))) /\
  (forall F (b : SharedOriginRayBundle T) e dist,
    total_same_rows (fun d => directions (mkRayBundle (Coords := F) d b)) /\
    total_same_rows (fun d => centers (mkRayBundle (Coords := F) d b)) /\
    total_same_rows (fun d => option_map pts_data (point_on_ray (mkRayBundle (Coords := F) d b))) /\
    total_same_rows (fun d => option_map pts_data (point_on_ray_at_distance (mkRayBundle (Coords := F) d b) dist)) /\
    total_same_rows (fun d => option_map rb_data (ray_camera_to_world e (mkRayBundle d b)))) /\
  (forall F (b : SharedDirectionRayBundle T) e dist,
    total_same_rows (fun d => directions (mkRayBundle (Coords := F) d b)) /\
    total_same_rows (fun d => centers (mkRayBundle (Coords := F) d b)) /\
    total_same_rows (fun d => option_map pts_data (point_on_ray (mkRayBundle (Coords := F) d b))) /\
    total_same_rows (fun d => option_map pts_data (point_on_ray_at_distance (mkRayBundle (Coords := F) d b) dist)) /\
    total_same_rows (fun d => option_map rb_data (ray_camera_to_world e (mkRayBundle d b)))).
Proof. exact batch_total_lemma. Qed.
Print Assumptions C01_batch_total.

(** A three-row batch through a camera (no hypotheses to meet). *)
Example C01_case : forall T (O : Ops T) (a b c : V3 T) k e,
  exists x y z, world_to_pixel (camera_new (perspective_from k) e) (mkPoints [a; b; c])
                = Some (mkPixels [x; y; z]).
Proof.
  intros T O a b c k e.
  destruct (C01_batch_total (T := T)) as (_ & _ & _ & _ & H & _).
  destruct (H (perspective_from k) e) as [W _]. destruct (W [a; b; c]) as (l & E & L).
  destruct (world_to_pixel _ _) as [[p]|]; [|discriminate].
  destruct l as [|x [|y [|z [|]]]]; try discriminate. injection E as ->.
  now exists x, y, z.
Qed.

(** C02: converting a stacked batch is stacking the converted parts, bit for bit,
    and the shared component of a ray bundle does not depend on the rows. *)
Theorem C02_batch_rowwise {T} {O : Ops T} :
  (forall e, rowwise (fun d => option_map pts_data (world_to_camera e (mkPoints d)))) /\
  (forall e, rowwise (fun d => option_map pts_data (camera_to_world e (mkPoints d)))) /\
  (forall k : IntrinsicParametersPerspective T,
    rowwise (fun d => option_map pix_data (camera_to_pixel k (mkPoints d))) /\
    rowwise (fun d => option_map rb_data (pixel_to_camera k (mkPixels d))) /\
    same_for_all (fun d => option_map rb_type (pixel_to_camera k (mkPixels d)))) /\
  (forall k : IntrinsicParametersOrthographic T,
    rowwise (fun d => option_map pix_data (camera_to_pixel k (mkPoints d))) /\
    rowwise (fun d => option_map rb_data (pixel_to_camera k (mkPixels d))) /\
    same_for_all (fun d => option_map rb_type (pixel_to_camera k (mkPixels d)))) /\
  (forall (k : IntrinsicParametersPerspective T) (e : ExtrinsicParameters T),
    rowwise (fun d => option_map pix_data (world_to_pixel (camera_new k e) (mkPoints d))) /\
    rowwise (fun d => option_map rb_data (pixel_to_world (camera_new k e) (mkPixels d))) /\
    same_for_all (fun d => option_map rb_type (pixel_to_world (camera_new k e) (mkPixels d)))) /\
  (forall (k : IntrinsicParametersOrthographic T) (e : ExtrinsicParameters T),
    rowwise (fun d => option_map pix_data (world_to_pixel (camera_new k e) (mkPoints d))) /\
    rowwise (fun d => option_map rb_data (pixel_to_world (camera_new k e) (mkPixels d))) /\
    same_for_all (fun d => option_map rb_type (pixel_to_world (camera_new k e) (mkPixels d)))) /\
  (forall F (b : SharedOriginRayBundle T) e dist,
    rowwise (fun d => directions (mkRayBundle (Coords := F) d b)) /\
    rowwise (fun d => centers (mkRayBundle (Coords := F) d b)) /\
    rowwise (fun d => option_map pts_data (point_on_ray (mkRayBundle (Coords := F) d b))) /\
    rowwise (fun d => option_map pts_data (point_on_ray_at_distance (mkRayBundle (Coords := F) d b) dist)) /\
    rowwise (fun d => option_map rb_data (ray_camera_to_world e (mkRayBundle d b))) /\
    same_for_all (fun d => option_map rb_type (ray_camera_to_world e (mkRayBundle d b)))) /\
  (forall F (b : SharedDirectionRayBundle T) e dist,
    rowwise (fun d => directions (mkRayBundle (Coords := F) d b)) /\
    rowwise (fun d => centers (mkRayBundle (Coords := F) d b)) /\
    rowwise (fun d => option_map pts_data (point_on_ray (mkRayBundle (Coords := F) d b))) /\
    rowwise (fun d => option_map pts_data (point_on_ray_at_distance (mkRayBundle (Coords := F) d b) dist)) /\
    rowwise (fun d => option_map rb_data (ray_camera_to_world e (mkRayBundle d b))) /\
    same_for_all (fun d => option_map rb_type (ray_camera_to_world e (mkRayBundle d b)))).
Proof. exact batch_rowwise_lemma. Qed.
Print Assumptions C02_batch_rowwise.

(** A batch of two rows is converted row by row. *)
Example C02_case : forall T (O : Ops T) (a b : V3 T) e x y,
  world_to_camera e (mkPoints [a]) = Some (mkPoints [x]) ->
  world_to_camera e (mkPoints [b]) = Some (mkPoints [y]) ->
  world_to_camera e (mkPoints [a; b]) = Some (mkPoints [x; y]).
Proof.
  intros T O a b e x y Ha Hb.
  destruct (C02_batch_rowwise (T := T)) as (H & _).
  destruct (H e [a] [b]) as (ya & yb & A & B & AB). cbn [app] in AB.
  rewrite Ha in A. rewrite Hb in B. cbn in A, B. injection A as <-. injection B as <-.
  destruct (world_to_camera e (mkPoints [a; b])) as [[p]|]; cbn in AB; [|discriminate].
  injection AB as ->. reflexivity.
Qed.

(** C25: centers(), directions() and to_single_ray() agree, for every scalar type. *)
Theorem C25_accessors_agree {T} {O : Ops T} F :
  (forall (b : SharedOriginRayBundle T) d,
     centers (mkRayBundle (Coords := F) d b) = Some (map (fun _ => so_center b) d) /\
     directions (mkRayBundle (Coords := F) d b) = Some d) /\
  (forall (b : SharedDirectionRayBundle T) d,
     centers (mkRayBundle (Coords := F) d b) = Some d /\
     directions (mkRayBundle (Coords := F) d b) = Some (map (fun _ => sd_direction b) d)) /\
  (forall (b : SharedOriginRayBundle T) r, exists c v,
     centers (mkRayBundle (Coords := F) [r] b) = Some [c] /\
     directions (mkRayBundle (Coords := F) [r] b) = Some [v] /\
     to_single_ray (mkRayBundle (Coords := F) [r] b) = Some (mkRay c v)) /\
  (forall (b : SharedDirectionRayBundle T) r, exists c v,
     centers (mkRayBundle (Coords := F) [r] b) = Some [c] /\
     directions (mkRayBundle (Coords := F) [r] b) = Some [v] /\
     to_single_ray (mkRayBundle (Coords := F) [r] b) = Some (mkRay c v)).
Proof. exact (accessors_lemma F). Qed.
Print Assumptions C25_accessors_agree.

(** A one-ray bundle. *)
Example C25_case :
  to_single_ray (mkRayBundle (Coords := WorldFrame) [mkV3 1 2 3]%R (mkSO (mkV3 4 5 6)%R))
  = Some (mkRay (mkV3 4 5 6) (mkV3 1 2 3))%R.
Proof. reflexivity. Qed.

