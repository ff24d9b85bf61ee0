(** * PropTestUtils.v - property theorems C53, C54, C63, C64 *)

From Coq Require Import List Arith Lia Reals Lra.
From Verif Require Import Scalar Linalg Bundles Extrinsics Perspective Orthographic Camera TestUtils Spec RealBase IntrinsicsProofs TestUtilsProofs PropCamera.
Import ListNotations.

(** C53: when the grid generator panics, and what it lists otherwise. [umax] is the largest [usize]. *)
Theorem C53_grid {T} {O : Ops T} (umax : nat) (as_scalar : nat -> T) (width height step border : nat) :
  0 < step -> width <= umax -> height <= umax ->
  (generate_uv_raw umax as_scalar width height step border = None <->
     height < border \/ (border < height - border /\ width < border)) /\
  (forall px, generate_uv_raw umax as_scalar width height step border = Some px ->
     exists nr nc,
       (forall j, j < nr <-> border + j * step < height - border) /\
       (0 < nr -> forall i, i < nc <-> border + i * step < width - border) /\
       pix_data px = flat_map (fun j => map (fun i =>
         mkV2 (as_scalar (border + i * step)) (as_scalar (border + j * step))) (seq 0 nc)) (seq 0 nr)).
Proof. exact (C53_lemma umax as_scalar width height step border). Qed.
Print Assumptions C53_grid.

(** two rows of three pixels; the border larger than the image panics *)
Example C53_case {T} {O : Ops T} (as_scalar : nat -> T) :
  generate_uv_raw 1000 as_scalar 7 6 2 1 = Some (mkPixels (map (fun p => mkV2 (as_scalar (fst p)) (as_scalar (snd p)))
    [(1, 1); (3, 1); (5, 1); (1, 3); (3, 3); (5, 3)])) /\
  generate_uv_raw 1000 as_scalar 3 40 2 4 = None /\
  generate_uv_raw 1000 as_scalar 3 8 2 4 <> None.
Proof.
  split; [reflexivity|]. split.
  - apply (proj1 (C53_grid 1000 as_scalar 3 40 2 4 ltac:(lia) ltac:(lia) ltac:(lia))). lia.
  - intros H. apply (proj1 (C53_grid 1000 as_scalar 3 8 2 4 ltac:(lia) ltac:(lia) ltac:(lia))) in H. lia.
Qed.
(** close to the largest [usize] the next value would overflow: the loop stops *)
Example C53_overflow_case {T} {O : Ops T} (as_scalar : nat -> T) :
  generate_uv_raw 20 as_scalar 20 20 15 2 = Some (mkPixels (map (fun p => mkV2 (as_scalar (fst p)) (as_scalar (snd p)))
    [(2, 2); (17, 2); (2, 17); (17, 17)])).
Proof. reflexivity. Qed.

(** C53: each pixel is listed once, and the pixels are those of the grid. *)
Theorem C53_each_pixel_once {T} {O : Ops T} (umax : nat) (as_scalar : nat -> T) (width height step border : nat) px :
  0 < step -> width <= umax -> height <= umax ->
  (forall a b, a <= umax -> b <= umax -> as_scalar a = as_scalar b -> a = b) ->
  generate_uv_raw umax as_scalar width height step border = Some px ->
  NoDup (pix_data px) /\
  (border <= width -> forall u v, In (mkV2 u v) (pix_data px) <->
     exists i j, u = as_scalar (border + i * step) /\ v = as_scalar (border + j * step) /\
       border + i * step < width - border /\ border + j * step < height - border).
Proof. exact (C53b_lemma umax as_scalar width height step border px). Qed.
Print Assumptions C53_each_pixel_once.

Example C53_each_case px : generate_uv_raw 1000 INR 7 6 2 1 = Some px -> NoDup (pix_data px) /\ In (mkV2 (INR 5) (INR 3)) (pix_data px).
Proof.
  intros H. destruct (C53_each_pixel_once 1000 INR 7 6 2 1 px ltac:(lia) ltac:(lia) ltac:(lia)
    (fun a b _ _ => INR_eq a b) H) as (N & M). split; [exact N|].
  apply (M ltac:(lia)). exists 2, 1. repeat split; lia.
Qed.

(** C54: the public helper succeeds whenever the grid generator does (exact arithmetic). *)
Theorem C54_roundtrip_intrinsics (umax : nat) (as_scalar : nat -> R) (width height step border : nat) (eps : R) :
  (0 <= eps)%R ->
  (forall k : PerspectiveParams R, pp_fx k <> 0%R -> pp_fy k <> 0%R ->
     (roundtrip_intrinsics umax as_scalar (perspective_from k) width height step border eps = Some tt <->
      generate_uv_raw umax as_scalar width height step border <> None)) /\
  (forall k : OrthographicParams R, op_sx k <> 0%R -> op_sy k <> 0%R ->
     (roundtrip_intrinsics umax as_scalar (orthographic_from k) width height step border eps = Some tt <->
      generate_uv_raw umax as_scalar width height step border <> None)).
Proof. exact (C54_lemma umax as_scalar width height step border eps). Qed.
Print Assumptions C54_roundtrip_intrinsics.

Example C54_case : roundtrip_intrinsics 1000 INR (perspective_from ex_k) 640 480 5 5 (1/10000000000)%R = Some tt.
Proof.
  apply (proj1 (C54_roundtrip_intrinsics 1000 INR 640 480 5 5 (1/10000000000)%R ltac:(lra)) ex_k ex_fx ex_fy).
  intros H. apply (proj1 (C53_grid 1000 INR 640 480 5 5 ltac:(lia) ltac:(lia) ltac:(lia))) in H. lia.
Qed.

(** C63: the same for whole cameras. *)
Theorem C63_roundtrip_camera (umax : nat) (as_scalar : nat -> R) (width height step border : nat) (eps : R) q c :
  (0 <= eps)%R -> unit_quat q ->
  (forall k : PerspectiveParams R, pp_fx k <> 0%R -> pp_fy k <> 0%R ->
     (roundtrip_camera umax as_scalar (camera_new (perspective_from k) (from_rotation_and_camcenter q c))
        width height step border eps = Some tt <->
      generate_uv_raw umax as_scalar width height step border <> None)) /\
  (forall k : OrthographicParams R, op_sx k <> 0%R -> op_sy k <> 0%R ->
     (roundtrip_camera umax as_scalar (camera_new (orthographic_from k) (from_rotation_and_camcenter q c))
        width height step border eps = Some tt <->
      generate_uv_raw umax as_scalar width height step border <> None)).
Proof. exact (C63_lemma umax as_scalar width height step border eps q c). Qed.
Print Assumptions C63_roundtrip_camera.

Example C63_case : roundtrip_camera 1000 INR (camera_new (perspective_from ex_k) (from_rotation_and_camcenter ex_q ex_c)) 640 480 5 5 0%R = Some tt.
Proof.
  apply (proj1 (C63_roundtrip_camera 1000 INR 640 480 5 5 0%R ex_q ex_c ltac:(lra) ex_q_unit) ex_k ex_fx ex_fy).
  intros H. apply (proj1 (C53_grid 1000 INR 640 480 5 5 ltac:(lia) ltac:(lia) ltac:(lia))) in H. lia.
Qed.

(** C64: any scalar type and any intrinsic model which keeps the number of points: the helper returns normally exactly when every coordinate comes back within eps. *)
Theorem C64_helper_detects_errors {T} {O : Ops T} (umax : nat) (as_scalar : nat -> T) {I} {HI : IntrinsicParameters T I} {HB : Bundle T BundleType}
    (cam : I) (width height step border : nat) (eps : T) :
  (forall px rays pts px', pixel_to_camera cam px = Some rays -> point_on_ray rays = Some pts ->
     camera_to_pixel cam pts = Some px' -> length (pix_data px) = length (pix_data px')) ->
  (roundtrip_intrinsics umax as_scalar cam width height step border eps = Some tt <->
   exists px rays pts px',
     generate_uv_raw umax as_scalar width height step border = Some px /\
     pixel_to_camera cam px = Some rays /\ point_on_ray rays = Some pts /\ camera_to_pixel cam pts = Some px' /\
     Forall2 (fun p q => o_leb (o_abs (o_sub (Linalg.px p) (Linalg.px q))) eps = true /\
                         o_leb (o_abs (o_sub (py p) (py q))) eps = true) (pix_data px) (pix_data px')).
Proof. exact (C64_lemma umax as_scalar cam width height step border eps). Qed.
Print Assumptions C64_helper_detects_errors.

(** a model which shifts every pixel by one: not accepted with eps = 1/2 *)
Example C64_case :
  let bad := {| BundleType := SharedOriginRayBundle R;
                pixel_to_camera := fun (_ : unit) p => Some (new_shared_zero_origin (map (fun q => mkV3 (px q) (py q) 1%R) (pix_data p)));
                camera_to_pixel := fun _ p => Some (mkPixels (map (fun q => mkV2 (vx q + 1)%R (vy q)) (pts_data p))) |} in
  @roundtrip_intrinsics R R_ops 1000 INR unit bad SharedOrigin_Bundle tt 7 6 2 1 (1/2)%R <> Some tt.
Proof.
  intros bad H.
  assert (P : forall l : list (V3 R), @point_on_ray R CameraFrame (SharedOriginRayBundle R) SharedOrigin_Bundle
     (new_shared_zero_origin l) = Some (mkPoints l)).
  { intros l. unfold point_on_ray. cbn -[so_point_on_ray]. rewrite Rows.so_point_on_ray_rows. do 2 f_equal.
    rewrite <- (map_id l) at 2. apply map_ext. intros [a b c]. apply V3_eq; ru; ring. }
  pose proof (C64_helper_detects_errors (HI := bad) 1000 INR tt 7 6 2 1 (1/2)%R) as G.
  apply G in H.
  - destruct H as (px & rays & pts & px' & E0 & E1 & E2 & E3 & F). cbn in E1, E3.
    injection E1 as <-. cbn [BundleType bad] in E2. rewrite P in E2. injection E2 as <-. injection E3 as <-.
    assert (L : pix_data px <> []) by (injection E0 as <-; discriminate).
    destruct (pix_data px) as [|p l]; [congruence|]. cbn in F. inversion F as [|? ? ? ? [K _] _]. subst.
    cbn in K. unfold Rleb in K. destruct (Rle_dec _ _) as [K'|]; [|discriminate].
    replace (Linalg.px p - (Linalg.px p + 1))%R with (-(1))%R in K' by ring. rewrite Rabs_Ropp, Rabs_R1 in K'. lra.
  - intros px rays pts px' E1 E2 E3. cbn in E1, E3. injection E1 as <-. cbn [BundleType bad] in E2.
    rewrite P in E2. injection E2 as <-. injection E3 as <-. cbn. now rewrite !map_length.
Qed.

