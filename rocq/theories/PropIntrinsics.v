(** * PropIntrinsics.v - property theorems C13-C24 *)

From Coq Require Import List Reals Lra ZArith Lia.
From Flocq Require Import Core BinarySingleNaN.
From Verif Require Import Scalar Linalg Bundles Extrinsics Perspective Orthographic Spec RealBase VecLemmas IntrinsicsProofs FloatIntrProofs FloatNormProofs.
Import ListNotations.
Local Open Scope R_scope.

(** The intrinsics used in the examples. *)
Definition ex_k : PerspectiveParams R := mkPP 100 102 (1/10) 321 239.
Definition ex_ok : OrthographicParams R := mkOP 100 102 321 239.
Lemma ex_fx : pp_fx ex_k <> 0. Proof. simpl; lra. Qed.
Lemma ex_fy : pp_fy ex_k <> 0. Proof. simpl; lra. Qed.
Lemma ex_sx : op_sx ex_ok <> 0. Proof. simpl; lra. Qed.
Lemma ex_sy : op_sy ex_ok <> 0. Proof. simpl; lra. Qed.

(** C13: the projection formula. *)
Theorem C13_perspective_projection (k : PerspectiveParams R) pts : Forall (fun p => vz p <> 0) pts ->
  camera_to_pixel (perspective_from k) (mkPoints pts)
  = Some (mkPixels (map (fun p =>
      mkV2 (pp_fx k * vx p / vz p + pp_skew k * vy p / vz p + pp_cx k)
           (pp_fy k * vy p / vz p + pp_cy k)) pts)).
Proof. exact (C13_lemma k pts). Qed.
Print Assumptions C13_perspective_projection.

Example C13_case : camera_to_pixel (perspective_from ex_k) (mkPoints [mkV3 1 2 4; mkV3 3 0 (-1)])
  = Some (mkPixels [mkV2 (25 + 1/20 + 321) (51 + 239); mkV2 (-300 + 321) 239]).
Proof.
  rewrite C13_perspective_projection by (repeat constructor; simpl; lra).
  cbn [map]. do 2 f_equal.
  apply f_equal2; [|apply f_equal2; [|reflexivity]]; apply V2_eq; simpl; lra.
Qed.

(** C14: pixel -> ray -> point -> pixel. *)
Theorem C14_perspective_pixel_roundtrip (k : PerspectiveParams R) px : pp_fx k <> 0 -> pp_fy k <> 0 ->
  exists rays : RayBundle CameraFrame (SharedOriginRayBundle R) R,
    pixel_to_camera (perspective_from k) (mkPixels px) = Some rays /\
    (exists pts, point_on_ray rays = Some pts /\
                 camera_to_pixel (perspective_from k) pts = Some (mkPixels px)) /\
    (forall d, d <> 0 -> exists pts, point_on_ray_at_distance rays d = Some pts /\
                 camera_to_pixel (perspective_from k) pts = Some (mkPixels px)).
Proof. exact (C14_lemma k px). Qed.
Print Assumptions C14_perspective_pixel_roundtrip.

Example C14_case : exists rays : RayBundle CameraFrame (SharedOriginRayBundle R) R,
  pixel_to_camera (perspective_from ex_k) (mkPixels [mkV2 7 9; mkV2 0 (-3)]) = Some rays /\
  exists pts, point_on_ray_at_distance rays (-5) = Some pts /\
    camera_to_pixel (perspective_from ex_k) pts = Some (mkPixels [mkV2 7 9; mkV2 0 (-3)]).
Proof.
  destruct (C14_perspective_pixel_roundtrip ex_k [mkV2 7 9; mkV2 0 (-3)] ex_fx ex_fy) as (rays & H & _ & D).
  exists rays. split; [exact H|]. apply D. lra.
Qed.

(** C15: point -> pixel -> ray goes through the point. *)
Theorem C15_perspective_point_on_its_ray (k : PerspectiveParams R) p : pp_fx k <> 0 -> pp_fy k <> 0 -> vz p <> 0 ->
  exists px dir (rays : RayBundle CameraFrame (SharedOriginRayBundle R) R),
    camera_to_pixel (perspective_from k) (mkPoints [p]) = Some px /\
    pixel_to_camera (perspective_from k) px = Some rays /\
    centers rays = Some [vO] /\
    directions rays = Some [dir] /\
    p = vscl (vz p) dir /\
    (0 < vz p -> point_on_ray_at_distance rays (vlen p) = Some (mkPoints [p])).
Proof. exact (C15_lemma k p). Qed.
Print Assumptions C15_perspective_point_on_its_ray.

Example C15_case : exists px (rays : RayBundle CameraFrame (SharedOriginRayBundle R) R),
  camera_to_pixel (perspective_from ex_k) (mkPoints [mkV3 2 3 6]) = Some px /\
  pixel_to_camera (perspective_from ex_k) px = Some rays /\
  point_on_ray_at_distance rays 7 = Some (mkPoints [mkV3 2 3 6]).
Proof.
  assert (Z : vz (mkV3 2 3 6) <> 0) by (simpl; lra).
  destruct (C15_perspective_point_on_its_ray ex_k _ ex_fx ex_fy Z) as (px & dir & rays & H1 & H2 & _ & _ & _ & H3).
  exists px, rays. split; [exact H1|]. split; [exact H2|]. rewrite <- H3 by (simpl; lra). f_equal.
  symmetry. apply vlen_unique; [lra|ru_spec; lra].
Qed.

(** C16: two points share a pixel iff they are on one line through the center. *)
Theorem C16_same_pixel_iff_same_line (k : PerspectiveParams R) a b : pp_fx k <> 0 -> pp_fy k <> 0 -> vz a <> 0 -> vz b <> 0 ->
  (camera_to_pixel (perspective_from k) (mkPoints [a]) = camera_to_pixel (perspective_from k) (mkPoints [b])
   <-> exists s, s <> 0 /\ a = vscl s b) /\
  camera_to_pixel (perspective_from k) (mkPoints [vopp a]) = camera_to_pixel (perspective_from k) (mkPoints [a]).
Proof. exact (C16_lemma k a b). Qed.
Print Assumptions C16_same_pixel_iff_same_line.

Example C16_case :
  camera_to_pixel (perspective_from ex_k) (mkPoints [mkV3 1 2 3])
  = camera_to_pixel (perspective_from ex_k) (mkPoints [mkV3 (-2) (-4) (-6)]) /\
  camera_to_pixel (perspective_from ex_k) (mkPoints [mkV3 1 2 3])
  <> camera_to_pixel (perspective_from ex_k) (mkPoints [mkV3 1 2 4]).
Proof.
  split.
  - assert (A : vz (mkV3 1 2 3) <> 0) by (simpl; lra). assert (B : vz (mkV3 (-2) (-4) (-6)) <> 0) by (simpl; lra).
    refine (proj2 (proj1 (C16_same_pixel_iff_same_line ex_k _ _ ex_fx ex_fy A B)) _).
    exists (-/2). split; [lra|]. apply V3_eq; ru_spec; simpl; lra.
  - assert (A : vz (mkV3 1 2 3) <> 0) by (simpl; lra). assert (B : vz (mkV3 1 2 4) <> 0) by (simpl; lra).
    intros E. destruct (proj1 (proj1 (C16_same_pixel_iff_same_line ex_k _ _ ex_fx ex_fy A B)) E) as (t & _ & F).
    unfold vscl in F; simpl in F. apply V3_inv in F. lra.
Qed.

(** C18: the constructor reads the parameters back, any scalar type whose 0 and 1
    equal themselves (so the reals and, next, every IEEE format). *)
Theorem C18_from_normalized_reads_back {T} {O : Ops T} :
  (o_eqb o_zero o_zero = true -> o_eqb o_one o_one = true ->
   forall fx fy skew cx cy : T,
   from_normalized_3x4_matrix
     (mkM34 fx skew cx o_zero  o_zero fy cy o_zero  o_zero o_zero o_one o_zero)
   = Ok (perspective_from (mkPP fx fy skew cx cy))) /\
  (forall p k, from_normalized_3x4_matrix p = Ok k ->
     ipp_fx k = p00 p /\ ipp_fy k = p11 p /\ ipp_skew k = p01 p /\ ipp_cx k = p02 p /\ ipp_cy k = p12 p /\
     (forall pts, camera_to_pixel k pts
        = camera_to_pixel (perspective_from (mkPP (p00 p) (p11 p) (p01 p) (p02 p) (p12 p))) pts) /\
     (forall px, pixel_to_camera k px
        = pixel_to_camera (perspective_from (mkPP (p00 p) (p11 p) (p01 p) (p02 p) (p12 p))) px)).
Proof. exact C18_lemma. Qed.
Print Assumptions C18_from_normalized_reads_back.

Example C18_case : from_normalized_3x4_matrix (mkM34 100 (1/10) 321 0  0 102 239 0  0 0 1 0)
  = Ok (perspective_from ex_k).
Proof. refine (proj1 (C18_from_normalized_reads_back (T := R)) _ _ 100 102 (1/10) 321 239); simpl; now apply FromViewProofs.Reqb_true. Qed.

(** C19 over the reals, with the f64 epsilon 2^-52. *)
Theorem C19_from_normalized_rejects (p : M34 R) :
  (from_normalized_3x4_matrix p = Err InvalidInput <->
   / 4503599627370496 < Rabs (p03 p) \/ / 4503599627370496 < Rabs (p10 p) \/
   / 4503599627370496 < Rabs (p13 p) \/ / 4503599627370496 < Rabs (p20 p) \/
   / 4503599627370496 < Rabs (p21 p) \/ / 4503599627370496 < Rabs (p23 p) \/
   Rmax (Rabs (p22 p)) 1 * / 4503599627370496 < Rabs (p22 p - 1)) /\
  (from_normalized_3x4_matrix p = Err InvalidInput \/ exists k, from_normalized_3x4_matrix p = Ok k).
Proof. exact (C19_lemma p). Qed.
Print Assumptions C19_from_normalized_rejects.

Example C19_case : from_normalized_3x4_matrix (mkM34 100 0 321 0  0 102 239 0  0 (/1000000) 1 0) = Err InvalidInput.
Proof.
  apply C19_from_normalized_rejects. simpl. do 4 right. left. rewrite Rabs_right; lra.
Qed.

(** C20: a matrix with zero focal lengths is accepted (the documentation says
    matrices which are not perspective cameras are rejected). *)
Theorem C20_degenerate_rejected_refuted :
  exists (p : M34 R) k,
    from_normalized_3x4_matrix p = Ok k /\ ipp_fx k = 0 /\ ipp_fy k = 0 /\
    mdet (left33 p) = 0 /\
    (forall x, vz x <> 0 -> camera_to_pixel k (mkPoints [x]) = Some (mkPixels [mkV2 0 0])).
Proof. exact C20_lemma. Qed.
Print Assumptions C20_degenerate_rejected_refuted.

(** C21: the orthographic projection formula and its fibres. *)
Theorem C21_orthographic_projection (k : OrthographicParams R) :
  (forall pts, camera_to_pixel (orthographic_from k) (mkPoints pts)
     = Some (mkPixels (map (fun p => mkV2 (op_sx k * vx p + op_cx k) (op_sy k * vy p + op_cy k)) pts))) /\
  (op_sx k <> 0 -> op_sy k <> 0 -> forall a b,
     camera_to_pixel (orthographic_from k) (mkPoints [a]) = camera_to_pixel (orthographic_from k) (mkPoints [b])
     <-> vx a = vx b /\ vy a = vy b).
Proof. exact (C21_lemma k). Qed.
Print Assumptions C21_orthographic_projection.

Example C21_case : camera_to_pixel (orthographic_from ex_ok) (mkPoints [mkV3 1 2 4]) = Some (mkPixels [mkV2 421 443]).
Proof. rewrite (proj1 (C21_orthographic_projection ex_ok)). cbn [map]. do 3 f_equal. apply V2_eq; simpl; lra. Qed.

(** C22: the orthographic round trips. *)
Theorem C22_orthographic_roundtrips (k : OrthographicParams R) : op_sx k <> 0 -> op_sy k <> 0 ->
  (forall px, exists rays : RayBundle CameraFrame (SharedDirectionRayBundle R) R,
    pixel_to_camera (orthographic_from k) (mkPixels px) = Some rays /\
    (exists pts, point_on_ray rays = Some pts /\
                 camera_to_pixel (orthographic_from k) pts = Some (mkPixels px)) /\
    (forall d, exists pts, point_on_ray_at_distance rays d = Some pts /\
                 camera_to_pixel (orthographic_from k) pts = Some (mkPixels px))) /\
  (forall p, exists px (rays : RayBundle CameraFrame (SharedDirectionRayBundle R) R),
    camera_to_pixel (orthographic_from k) (mkPoints [p]) = Some px /\
    pixel_to_camera (orthographic_from k) px = Some rays /\
    centers rays = Some [mkV3 (vx p) (vy p) 0] /\
    directions rays = Some [mkV3 0 0 1] /\
    point_on_ray_at_distance rays (vz p) = Some (mkPoints [p])).
Proof. exact (C22_lemma k). Qed.
Print Assumptions C22_orthographic_roundtrips.

Example C22_case : exists rays : RayBundle CameraFrame (SharedDirectionRayBundle R) R,
  pixel_to_camera (orthographic_from ex_ok) (mkPixels [mkV2 7 9; mkV2 0 (-3)]) = Some rays /\
  exists pts, point_on_ray_at_distance rays (-5) = Some pts /\
    camera_to_pixel (orthographic_from ex_ok) pts = Some (mkPixels [mkV2 7 9; mkV2 0 (-3)]).
Proof.
  destruct (proj1 (C22_orthographic_roundtrips ex_ok ex_sx ex_sy) [mkV2 7 9; mkV2 0 (-3)]) as (rays & H & _ & D).
  exists rays. split; [exact H|]. apply D.
Qed.

(** C23: points on rays lie on the rays, at the requested distance. *)
Theorem C23_points_on_rays Coords :
  (forall (b : RayBundle Coords (SharedOriginRayBundle R) R),
     point_on_ray b = Some (mkPoints (map (fun d => vadd (so_center (rb_type b)) d) (rb_data b))) /\
     (Forall (fun d => d <> vO) (rb_data b) -> forall dist,
      exists pts, point_on_ray_at_distance b dist = Some (mkPoints pts) /\
        Forall2 (fun d p => exists t, t * vlen d = dist /\ p = vadd (so_center (rb_type b)) (vscl t d) /\
                   vdist p (so_center (rb_type b)) = Rabs dist /\
                   (0 < dist -> 0 < vdot (vsub p (so_center (rb_type b))) d)) (rb_data b) pts)) /\
  (forall (b : RayBundle Coords (SharedDirectionRayBundle R) R),
     point_on_ray b = Some (mkPoints (map (fun c => vadd c (sd_direction (rb_type b))) (rb_data b))) /\
     (sd_direction (rb_type b) <> vO -> forall dist,
      exists pts, point_on_ray_at_distance b dist = Some (mkPoints pts) /\
        Forall2 (fun c p => exists t, t * vlen (sd_direction (rb_type b)) = dist /\
                   p = vadd c (vscl t (sd_direction (rb_type b))) /\
                   vdist p c = Rabs dist /\
                   (0 < dist -> 0 < vdot (vsub p c) (sd_direction (rb_type b)))) (rb_data b) pts)).
Proof. exact (C23_lemma Coords). Qed.
Print Assumptions C23_points_on_rays.

Example C23_case : point_on_ray (mkRayBundle (Coords := WorldFrame) [mkV3 1 0 2; mkV3 0 5 0] (mkSO (mkV3 1 1 1)))
  = Some (mkPoints [mkV3 2 1 3; mkV3 1 6 1]).
Proof.
  rewrite (proj1 (proj1 (C23_points_on_rays WorldFrame) _)). cbn [map rb_data rb_type so_center]. do 2 f_equal.
  apply f_equal2; [|apply f_equal2; [|reflexivity]]; apply V3_eq; ru_spec; simpl; lra.
Qed.

Section IEEE.
Variables (prec emax : Z) (Hp : Prec_gt_0 prec) (He : Prec_lt_emax prec emax).
Variables fsin fcos : binary_float prec emax -> binary_float prec emax.
Local Notation F := (binary_float prec emax).
Local Hint Extern 0 (Ops (binary_float prec emax)) =>
  exact (B_ops prec emax Hp He fsin fcos) : typeclass_instances.
Local Notation nan := (B754_nan : F).

(** C17: a point in the camera plane never gets a finite pixel. *)
Theorem C17_camera_plane_not_finite (k : PerspectiveParams F) x y s :
  exists u v, camera_to_pixel (perspective_from k) (mkPoints [mkV3 x y (B754_zero s)])
              = Some (mkPixels [mkV2 u v]) /\ is_finite u = false /\ is_finite v = false.
Proof. exact (C17_lemma prec emax Hp He fsin fcos k x y s). Qed.

(** C18 in every IEEE format, NaN and infinite parameters included. *)
Theorem C18_from_normalized_ieee (fx fy skew cx cy : F) :
  from_normalized_3x4_matrix
    (mkM34 fx skew cx o_zero  o_zero fy cy o_zero  o_zero o_zero o_one o_zero)
  = Ok (perspective_from (mkPP fx fy skew cx cy)).
Proof.
  exact (proj1 (C18_lemma (T := F)) (eqb_zero prec emax Hp He fsin fcos) (eqb_one prec emax Hp He fsin fcos)
           fx fy skew cx cy).
Qed.

(** C19 in IEEE arithmetic, for every format with 3 bits of precision or more
    and an exponent range not degenerate (f32 and f64 are such).  The epsilon is
    2^(1-prec). *)
Theorem C19_from_normalized_rejects_ieee (H3 : (3 <= prec)%Z) (Hm : (prec + 2 <= emax)%Z) (p : M34 F) :
  let off (x : F) (c : R) := is_finite x = false \/ bpow radix2 (1 - prec) < Rabs (B2R x - c) in
  from_normalized_3x4_matrix p = Err InvalidInput <->
  off (p03 p) 0 \/ off (p10 p) 0 \/ off (p13 p) 0 \/ off (p20 p) 0 \/ off (p21 p) 0 \/ off (p23 p) 0 \/
  off (p22 p) 1.
Proof. exact (C19_ieee_lemma prec emax Hp He fsin fcos H3 Hm p). Qed.

(** C24: a zero direction gives NaN at a distance and does not disturb the other rays. *)
Theorem C24_zero_direction_nan Coords :
  (forall (c : V3 F) s0 s1 s2 dist before after,
     exists lb la,
       point_on_ray_at_distance (mkRayBundle (Coords := Coords) before (mkSO c)) dist = Some (mkPoints lb) /\
       point_on_ray_at_distance (mkRayBundle (Coords := Coords) after (mkSO c)) dist = Some (mkPoints la) /\
       point_on_ray_at_distance
         (mkRayBundle (Coords := Coords)
            (before ++ mkV3 (B754_zero s0) (B754_zero s1) (B754_zero s2) :: after) (mkSO c)) dist
       = Some (mkPoints (lb ++ mkV3 nan nan nan :: la))) /\
  (forall s0 s1 s2 dist (cs : list (V3 F)),
     point_on_ray_at_distance
       (mkRayBundle (Coords := Coords) cs (mkSD (mkV3 (B754_zero s0) (B754_zero s1) (B754_zero s2)))) dist
     = Some (mkPoints (map (fun _ => mkV3 nan nan nan) cs))).
Proof. exact (C24_lemma prec emax Hp He fsin fcos Coords). Qed.
End IEEE.
Print Assumptions C17_camera_plane_not_finite.
Print Assumptions C18_from_normalized_ieee.
Print Assumptions C19_from_normalized_rejects_ieee.
Print Assumptions C24_zero_direction_nan.

(** In f64: the point (1, 1, -0). *)
Example C17_case fsin fcos : exists u v : f64,
  @camera_to_pixel _ _ (@Perspective_Intrinsics f64 (f64_ops fsin fcos))
    (@perspective_from f64 (f64_ops fsin fcos) (mkPP Bone Bone (B754_zero false) Bone Bone))
    (mkPoints [mkV3 Bone Bone (B754_zero true)]) = Some (mkPixels [mkV2 u v]) /\
  is_finite u = false /\ is_finite v = false.
Proof. exact (C17_camera_plane_not_finite 53 1024 f64_prec f64_emax fsin fcos _ _ _ true). Qed.
(** In f64: a NaN where a zero is expected is rejected. *)
Example C19_ieee_case fsin fcos :
  @from_normalized_3x4_matrix f64 (f64_ops fsin fcos)
    (mkM34 Bone (B754_zero false) Bone (B754_zero false)
           B754_nan Bone Bone (B754_zero false)
           (B754_zero false) (B754_zero false) Bone (B754_zero false)) = Err InvalidInput.
Proof.
  apply (C19_from_normalized_rejects_ieee 53 1024 f64_prec f64_emax fsin fcos); [lia|lia|].
  right. left. left. reflexivity.
Qed.
(** In f32: two rays, the first with zero direction. *)
Example C24_case fsin fcos : exists la,
  @point_on_ray_at_distance f32 WorldFrame _ (@SharedOrigin_Bundle f32 (f32_ops fsin fcos))
    (mkRayBundle [mkV3 (B754_zero false) (B754_zero true) (B754_zero false); mkV3 Bone Bone Bone]
       (mkSO (mkV3 Bone Bone Bone))) Bone
  = Some (mkPoints (mkV3 B754_nan B754_nan B754_nan :: la)).
Proof.
  destruct (proj1 (C24_zero_direction_nan 24 128 f32_prec f32_emax fsin fcos WorldFrame)
    (mkV3 Bone Bone Bone) false true false Bone [] [mkV3 Bone Bone Bone]) as (lb & la & H1 & H2 & H3).
  exists la. injection H1 as <-. exact H3.
Qed.
