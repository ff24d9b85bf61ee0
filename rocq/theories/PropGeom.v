(** * PropGeom.v - property theorems C73-C81: images of points, segments, planes and moved scenes *)

From Coq Require Import List Reals Lra.
From Verif Require Import Scalar Linalg Bundles Extrinsics Perspective Orthographic Camera Spec SpecGeom RealBase VecLemmas ExtrinsicsProofs GeomProofs GeomProofs2 GeomProofs3 PropCamera.
Import ListNotations.
Local Open Scope R_scope.

Lemma ex_forward : forward (from_rotation_and_camcenter ex_q ex_c) = mkV3 0 0 1.
Proof. rewrite forward_R by apply ex_q_unit. unfold ex_q. apply V3_eq; ru_spec; field. Qed.

(** C73: the points of the optical axis, and no others, are seen at the principal point. *)
Theorem C73_optical_axis q c : unit_quat q ->
  let e := from_rotation_and_camcenter q c in
  (forall k s, s <> 0 -> world_to_pixel (camera_new (perspective_from k) e) (mkPoints [vadd c (vscl s (forward e))])
     = Some (mkPixels [mkV2 (pp_cx k) (pp_cy k)])) /\
  (forall k x, pp_fx k <> 0 -> pp_fy k <> 0 -> depth q c x <> 0 ->
     world_to_pixel (camera_new (perspective_from k) e) (mkPoints [x]) = Some (mkPixels [mkV2 (pp_cx k) (pp_cy k)]) ->
     x = vadd c (vscl (depth q c x) (forward e))) /\
  (forall k s, world_to_pixel (camera_new (orthographic_from k) e) (mkPoints [vadd c (vscl s (forward e))])
     = Some (mkPixels [mkV2 (op_cx k) (op_cy k)])) /\
  (forall k x, op_sx k <> 0 -> op_sy k <> 0 ->
     world_to_pixel (camera_new (orthographic_from k) e) (mkPoints [x]) = Some (mkPixels [mkV2 (op_cx k) (op_cy k)]) ->
     x = vadd c (vscl (depth q c x) (forward e))).
Proof. exact (C73_lemma q c). Qed.
Print Assumptions C73_optical_axis.

(** the axis of this camera is parallel to the z axis *)
Example C73_case : world_to_pixel (camera_new (perspective_from ex_k) (from_rotation_and_camcenter ex_q ex_c)) (mkPoints [mkV3 1 2 10])
  = Some (mkPixels [mkV2 321 239]).
Proof.
  change (mkV2 321 239) with (mkV2 (pp_cx ex_k) (pp_cy ex_k)).
  rewrite <- (proj1 (C73_optical_axis ex_q ex_c ex_q_unit) ex_k 7 ltac:(lra)). do 4 f_equal.
  rewrite ex_forward. apply V3_eq; unfold ex_c; ru_spec; lra.
Qed.

(** C73: [from_view] shows the whole line from the camera through the target at the principal point. *)
Theorem C73_view_target_at_principal_point roll c l u : l <> c -> vcross u (vsub l c) <> vO ->
  let e := from_view_with_roll roll c l u in
  (forall k s, s <> 0 -> world_to_pixel (camera_new (perspective_from k) e) (mkPoints [lerp s c l])
     = Some (mkPixels [mkV2 (pp_cx k) (pp_cy k)])) /\
  (forall k s, world_to_pixel (camera_new (orthographic_from k) e) (mkPoints [lerp s c l])
     = Some (mkPixels [mkV2 (op_cx k) (op_cy k)])).
Proof. exact (C73b_lemma roll c l u). Qed.
Print Assumptions C73_view_target_at_principal_point.

Example C73b_case : world_to_pixel (camera_new (perspective_from ex_k) (from_view_with_roll (1/2) (mkV3 1 2 3) (mkV3 4 6 3) (mkV3 0 0 1))) (mkPoints [mkV3 7 10 3])
  = Some (mkPixels [mkV2 321 239]).
Proof.
  assert (N1 : mkV3 4 6 3 <> mkV3 1 2 3) by (intros H; apply V3_inv in H; simpl in H; lra).
  assert (N2 : vcross (mkV3 0 0 1) (vsub (mkV3 4 6 3) (mkV3 1 2 3)) <> vO) by (intros H; apply V3_inv in H; ru_spec; lra).
  change (mkV2 321 239) with (mkV2 (pp_cx ex_k) (pp_cy ex_k)).
  rewrite <- (proj1 (C73_view_target_at_principal_point (1/2) _ _ _ N1 N2) ex_k 2 ltac:(lra)). do 4 f_equal.
  apply V3_eq; unfold lerp; ru_spec; lra.
Qed.

(** C74: the image of a segment in front of the camera is the segment between the images of its ends. *)
Theorem C74_segments q c a b : unit_quat q ->
  (forall k, 0 < depth q c a -> 0 < depth q c b ->
   let cam := camera_new (perspective_from k) (from_rotation_and_camcenter q c) in
   exists pa pb, world_to_pixel cam (mkPoints [a; b]) = Some (mkPixels [pa; pb]) /\
     (forall s, 0 <= s <= 1 -> exists s', 0 <= s' <= 1 /\
        world_to_pixel cam (mkPoints [lerp s a b]) = Some (mkPixels [lerp2 s' pa pb])) /\
     (forall s', 0 <= s' <= 1 -> exists s, 0 <= s <= 1 /\
        world_to_pixel cam (mkPoints [lerp s a b]) = Some (mkPixels [lerp2 s' pa pb]))) /\
  (forall k, let cam := camera_new (orthographic_from k) (from_rotation_and_camcenter q c) in
   exists pa pb, world_to_pixel cam (mkPoints [a; b]) = Some (mkPixels [pa; pb]) /\
     (forall s, world_to_pixel cam (mkPoints [lerp s a b]) = Some (mkPixels [lerp2 s pa pb]))).
Proof. exact (C74_lemma q c a b). Qed.
Print Assumptions C74_segments.

Example C74_case : exists pa pb, world_to_pixel (camera_new (perspective_from ex_k) (from_rotation_and_camcenter ex_q ex_c)) (mkPoints [mkV3 2 4 5; mkV3 0 1 9]) = Some (mkPixels [pa; pb]) /\
  exists s, 0 <= s <= 1 /\ world_to_pixel (camera_new (perspective_from ex_k) (from_rotation_and_camcenter ex_q ex_c)) (mkPoints [lerp s (mkV3 2 4 5) (mkV3 0 1 9)])
    = Some (mkPixels [lerp2 (1/2) pa pb]).
Proof.
  destruct (proj1 (C74_segments ex_q ex_c (mkV3 2 4 5) (mkV3 0 1 9) ex_q_unit) ex_k) as (pa & pb & E & _ & H).
  1,2: unfold depth, ex_q, ex_c; ru_spec; lra.
  exists pa, pb. split; [exact E|]. apply H. lra.
Qed.

(** C74 without the condition on the depths is false: a segment from in front of the camera
    to behind it is not seen as the segment between the images of its ends. *)
Theorem C74_segment_behind_camera_refuted k : pp_fx k <> 0 ->
  let cam := camera_new (perspective_from k) (from_rotation_and_camcenter (mkQuat 0 0 0 1) vO) in
  exists a b s pa pb p, 0 < s < 1 /\ world_to_pixel cam (mkPoints [a; b; lerp s a b]) = Some (mkPixels [pa; pb; p]) /\
    forall s', 0 <= s' <= 1 -> p <> lerp2 s' pa pb.
Proof. exact (C74b_lemma k). Qed.
Print Assumptions C74_segment_behind_camera_refuted.

Example C74b_case : exists a b s pa pb p, 0 < s < 1 /\
  world_to_pixel (camera_new (perspective_from ex_k) (from_rotation_and_camcenter (mkQuat 0 0 0 1) vO)) (mkPoints [a; b; lerp s a b]) = Some (mkPixels [pa; pb; p]) /\
  forall s', 0 <= s' <= 1 -> p <> lerp2 s' pa pb.
Proof. exact (C74_segment_behind_camera_refuted ex_k ex_fx). Qed.

(** C75: the set of points seen inside a pixel rectangle is convex. *)
Theorem C75_visible_region_convex q c lo hi a b s : unit_quat q -> 0 <= s <= 1 ->
  (forall k, let cam := camera_new (perspective_from k) (from_rotation_and_camcenter q c) in
   let visible x := 0 < depth q c x /\ exists p, world_to_pixel cam (mkPoints [x]) = Some (mkPixels [p]) /\ in_rect lo hi p in
   visible a -> visible b -> visible (lerp s a b)) /\
  (forall k, let cam := camera_new (orthographic_from k) (from_rotation_and_camcenter q c) in
   let visible x := exists p, world_to_pixel cam (mkPoints [x]) = Some (mkPixels [p]) /\ in_rect lo hi p in
   visible a -> visible b -> visible (lerp s a b)).
Proof. exact (C75_lemma q c lo hi a b s). Qed.
Print Assumptions C75_visible_region_convex.

Example C75_case :
  let cam := camera_new (perspective_from ex_k) (from_rotation_and_camcenter ex_q ex_c) in
  let visible x := 0 < depth ex_q ex_c x /\ exists p, world_to_pixel cam (mkPoints [x]) = Some (mkPixels [p]) /\ in_rect (mkV2 0 0) (mkV2 640 480) p in
  visible (lerp (1/3) (mkV3 1 2 5) (mkV3 1 2 9)).
Proof.
  intros cam visible. apply (proj1 (C75_visible_region_convex ex_q ex_c (mkV2 0 0) (mkV2 640 480) (mkV3 1 2 5) (mkV3 1 2 9) (1/3) ex_q_unit ltac:(lra)) ex_k).
  - split; [unfold depth, ex_q, ex_c; ru_spec; lra|]. eexists. split; [|split; cbn [px py]; split].
    + replace (mkV3 1 2 5) with (vadd ex_c (vscl 2 (forward (from_rotation_and_camcenter ex_q ex_c)))) by (rewrite ex_forward; apply V3_eq; unfold ex_c; ru_spec; lra).
      apply (proj1 (C73_optical_axis ex_q ex_c ex_q_unit) ex_k 2). lra.
    + cbn; lra. + cbn; lra. + cbn; lra. + cbn; lra.
  - split; [unfold depth, ex_q, ex_c; ru_spec; lra|]. eexists. split; [|split; cbn [px py]; split].
    + replace (mkV3 1 2 9) with (vadd ex_c (vscl 6 (forward (from_rotation_and_camcenter ex_q ex_c)))) by (rewrite ex_forward; apply V3_eq; unfold ex_c; ru_spec; lra).
      apply (proj1 (C73_optical_axis ex_q ex_c ex_q_unit) ex_k 6). lra.
    + cbn; lra. + cbn; lra. + cbn; lra. + cbn; lra.
Qed.

(** C76: two cameras with the same center see any scene related by one projective map of the pixels. *)
Theorem C76_rotation_homography k1 q1 k2 q2 c : unit_quat q1 -> unit_quat q2 -> pp_fx k1 <> 0 -> pp_fy k1 <> 0 ->
  exists H, mdet H = pp_fx k2 * pp_fy k2 / (pp_fx k1 * pp_fy k1) /\
  forall x, depth q1 c x <> 0 -> depth q2 c x <> 0 -> exists p1 p2,
    world_to_pixel (camera_new (perspective_from k1) (from_rotation_and_camcenter q1 c)) (mkPoints [x]) = Some (mkPixels [p1]) /\
    world_to_pixel (camera_new (perspective_from k2) (from_rotation_and_camcenter q2 c)) (mkPoints [x]) = Some (mkPixels [p2]) /\
    represents (mv H (homog p1)) p2.
Proof. exact (C76_lemma k1 q1 k2 q2 c). Qed.
Print Assumptions C76_rotation_homography.

Example C76_case : exists H, mdet H = 1 /\ exists p1 p2,
  world_to_pixel (camera_new (perspective_from ex_k) (from_rotation_and_camcenter ex_q ex_c)) (mkPoints [mkV3 2 4 5]) = Some (mkPixels [p1]) /\
  world_to_pixel (camera_new (perspective_from ex_k) (from_rotation_and_camcenter (mkQuat (3/5) 0 0 (4/5)) ex_c)) (mkPoints [mkV3 2 4 5]) = Some (mkPixels [p2]) /\
  represents (mv H (homog p1)) p2.
Proof.
  destruct (C76_rotation_homography ex_k ex_q ex_k (mkQuat (3/5) 0 0 (4/5)) ex_c ex_q_unit ltac:(ru_spec; lra) ex_fx ex_fy) as (H & D & E).
  exists H. split; [rewrite D; cbn; field|]. apply E; unfold depth, ex_q, ex_c; ru_spec; lra.
Qed.

(** C76: two cameras see the points of a plane (not through the first center) related by one projective map of the pixels. *)
Theorem C76_plane_homography k1 q1 c1 k2 q2 c2 n h : unit_quat q1 -> unit_quat q2 -> pp_fx k1 <> 0 -> pp_fy k1 <> 0 ->
  vdot n c1 <> h ->
  exists H, mdet H = pp_fx k2 * pp_fy k2 / (pp_fx k1 * pp_fy k1) * ((h - vdot n c2) / (h - vdot n c1)) /\
  forall x, vdot n x = h -> depth q1 c1 x <> 0 -> depth q2 c2 x <> 0 -> exists p1 p2,
    world_to_pixel (camera_new (perspective_from k1) (from_rotation_and_camcenter q1 c1)) (mkPoints [x]) = Some (mkPixels [p1]) /\
    world_to_pixel (camera_new (perspective_from k2) (from_rotation_and_camcenter q2 c2)) (mkPoints [x]) = Some (mkPixels [p2]) /\
    represents (mv H (homog p1)) p2.
Proof. exact (C76b_lemma k1 q1 c1 k2 q2 c2 n h). Qed.
Print Assumptions C76_plane_homography.

(** the plane z = 20 *)
Example C76b_case : exists H, mdet H <> 0 /\ exists p1 p2,
  world_to_pixel (camera_new (perspective_from ex_k) (from_rotation_and_camcenter ex_q ex_c)) (mkPoints [mkV3 2 4 20]) = Some (mkPixels [p1]) /\
  world_to_pixel (camera_new (perspective_from ex_k) (from_rotation_and_camcenter ex_q (mkV3 5 0 0))) (mkPoints [mkV3 2 4 20]) = Some (mkPixels [p2]) /\
  represents (mv H (homog p1)) p2.
Proof.
  destruct (C76_plane_homography ex_k ex_q ex_c ex_k ex_q (mkV3 5 0 0) (mkV3 0 0 1) 20 ex_q_unit ex_q_unit ex_fx ex_fy) as (H & D & E).
  { unfold ex_c; ru_spec; lra. }
  exists H. split; [rewrite D; unfold ex_c, ex_k; cbn [pp_fx pp_fy]; ru_spec; lra|].
  apply E; unfold depth, ex_q, ex_c; ru_spec; lra.
Qed.

(** C77: for two cameras there is a fundamental matrix: the images of a point satisfy the
    epipolar equation, and two pixels satisfy it exactly when their viewing lines meet. *)
Theorem C77_epipolar_constraint k1 q1 c1 k2 q2 c2 : unit_quat q1 -> unit_quat q2 ->
  pp_fx k1 <> 0 -> pp_fy k1 <> 0 -> pp_fx k2 <> 0 -> pp_fy k2 <> 0 ->
  let cam1 := camera_new (perspective_from k1) (from_rotation_and_camcenter q1 c1) in
  let cam2 := camera_new (perspective_from k2) (from_rotation_and_camcenter q2 c2) in
  exists F, mdet F = 0 /\ (F = mscl 0 mI -> c1 = c2) /\
  (forall x, depth q1 c1 x <> 0 -> depth q2 c2 x <> 0 -> exists p1 p2,
     world_to_pixel cam1 (mkPoints [x]) = Some (mkPixels [p1]) /\
     world_to_pixel cam2 (mkPoints [x]) = Some (mkPixels [p2]) /\
     vdot (homog p2) (mv F (homog p1)) = 0) /\
  (forall p1 p2, exists (r1 r2 : RayBundle WorldFrame (SharedOriginRayBundle R) R) d1 d2,
     pixel_to_world cam1 (mkPixels [p1]) = Some r1 /\ pixel_to_world cam2 (mkPixels [p2]) = Some r2 /\
     directions r1 = Some [d1] /\ directions r2 = Some [d2] /\
     vdot (homog p2) (mv F (homog p1)) = triple (vsub c2 c1) d1 d2 /\
     (vcross d1 d2 <> vO ->
      (vdot (homog p2) (mv F (homog p1)) = 0 <-> exists s1 s2, vadd c1 (vscl s1 d1) = vadd c2 (vscl s2 d2)))).
Proof. exact (C77_lemma k1 q1 c1 k2 q2 c2). Qed.
Print Assumptions C77_epipolar_constraint.

Example C77_case : exists F, mdet F = 0 /\ F <> mscl 0 mI /\ exists p1 p2,
  world_to_pixel (camera_new (perspective_from ex_k) (from_rotation_and_camcenter ex_q ex_c)) (mkPoints [mkV3 2 4 5]) = Some (mkPixels [p1]) /\
  world_to_pixel (camera_new (perspective_from ex_k) (from_rotation_and_camcenter ex_q (mkV3 5 0 0))) (mkPoints [mkV3 2 4 5]) = Some (mkPixels [p2]) /\
  vdot (homog p2) (mv F (homog p1)) = 0.
Proof.
  destruct (C77_epipolar_constraint ex_k ex_q ex_c ex_k ex_q (mkV3 5 0 0) ex_q_unit ex_q_unit ex_fx ex_fy ex_fx ex_fy) as (F & D & N & E & _).
  exists F. split; [exact D|]. split.
  - intros H. specialize (N H). apply V3_inv in N. cbn in N. lra.
  - apply E; unfold depth, ex_q, ex_c; ru_spec; lra.
Qed.

(** C78: moving camera and scene together by a rigid motion (or mirroring, where [q'] exists) changes no pixel
    and moves the rays, whatever the intrinsics. *)
Theorem C78_moved_scene q q' g t c : unit_quat q -> unit_quat q' -> orthogonal g -> rotm q' = mm (rotm q) (mtr g) ->
  let move x := vadd (mv g x) t in
  let e := from_rotation_and_camcenter q c in let e' := from_rotation_and_camcenter q' (move c) in
  (forall (I : Type) (HI : IntrinsicParameters R I) (k : I) pts,
     world_to_pixel (camera_new k e') (mkPoints (map move pts)) = world_to_pixel (camera_new k e) (mkPoints pts)) /\
  (forall k px, exists ds,
     pixel_to_world (camera_new (perspective_from k) e) px = Some (mkRayBundle ds (mkSO c) : RayBundle WorldFrame (SharedOriginRayBundle R) R) /\
     pixel_to_world (camera_new (perspective_from k) e') px = Some (mkRayBundle (map (mv g) ds) (mkSO (move c)) : RayBundle WorldFrame (SharedOriginRayBundle R) R)) /\
  (forall k px, exists cs d,
     pixel_to_world (camera_new (orthographic_from k) e) px = Some (mkRayBundle cs (mkSD d) : RayBundle WorldFrame (SharedDirectionRayBundle R) R) /\
     pixel_to_world (camera_new (orthographic_from k) e') px = Some (mkRayBundle (map move cs) (mkSD (mv g d)) : RayBundle WorldFrame (SharedDirectionRayBundle R) R)).
Proof. exact (C78_lemma q q' g t c). Qed.
Print Assumptions C78_moved_scene.

Example C78_case :
  world_to_pixel (camera_new (perspective_from ex_k) (from_rotation_and_camcenter (mkQuat 0 0 0 1) (mkV3 (-16/25) (63/25) 3))) (mkPoints [mkV3 (-57/25) (101/25) 5])
  = world_to_pixel (camera_new (perspective_from ex_k) (from_rotation_and_camcenter ex_q ex_c)) (mkPoints [mkV3 2 4 5]).
Proof.
  set (g := rotm ex_q).
  assert (OG : orthogonal g) by (split; apply M33_eq; unfold g, ex_q; ru_spec; lra).
  assert (U : unit_quat (mkQuat 0 0 0 1)) by (ru_spec; lra).
  assert (E : rotm (mkQuat 0 0 0 1) = mm (rotm ex_q) (mtr g)) by (apply M33_eq; unfold g, ex_q; ru_spec; lra).
  rewrite <- (proj1 (C78_moved_scene ex_q _ g (mkV3 1 1 0) ex_c ex_q_unit U OG E) _ _ (perspective_from ex_k) [mkV3 2 4 5]).
  cbn [map]. f_equal; [do 2 f_equal|do 2 f_equal]; apply V3_eq; unfold g, ex_q, ex_c; ru_spec; lra.
Qed.

(** C78: for every rotation there is a quaternion of the moved camera. *)
Theorem C78_moved_camera_exists q g : unit_quat q -> unit_quat g -> exists q', unit_quat q' /\ rotm q' = mm (rotm q) (mtr (rotm g)).
Proof. exact (C78b_lemma q g). Qed.
Print Assumptions C78_moved_camera_exists.

Example C78b_case : exists q', unit_quat q' /\ rotm q' = mm (rotm ex_q) (mtr (rotm (mkQuat (3/5) 0 0 (4/5)))).
Proof. apply C78_moved_camera_exists; [apply ex_q_unit|ru_spec; lra]. Qed.

(** C78: scaling camera position and scene together changes no perspective pixel; an orthographic
    camera must scale its pixels per unit inversely. *)
Theorem C78_scaled_scene q c s pts : unit_quat q -> s <> 0 ->
  (forall k, Forall (fun x => depth q c x <> 0) pts ->
     world_to_pixel (camera_new (perspective_from k) (from_rotation_and_camcenter q (vscl s c))) (mkPoints (map (vscl s) pts))
     = world_to_pixel (camera_new (perspective_from k) (from_rotation_and_camcenter q c)) (mkPoints pts)) /\
  (forall sx sy cx cy,
     world_to_pixel (camera_new (orthographic_from (mkOP (sx / s) (sy / s) cx cy)) (from_rotation_and_camcenter q (vscl s c))) (mkPoints (map (vscl s) pts))
     = world_to_pixel (camera_new (orthographic_from (mkOP sx sy cx cy)) (from_rotation_and_camcenter q c)) (mkPoints pts)).
Proof. exact (C78c_lemma q c s pts). Qed.
Print Assumptions C78_scaled_scene.

Example C78c_case :
  world_to_pixel (camera_new (perspective_from ex_k) (from_rotation_and_camcenter ex_q (mkV3 3 6 9))) (mkPoints [mkV3 6 12 15])
  = world_to_pixel (camera_new (perspective_from ex_k) (from_rotation_and_camcenter ex_q ex_c)) (mkPoints [mkV3 2 4 5]).
Proof.
  rewrite <- (proj1 (C78_scaled_scene ex_q ex_c 3 [mkV3 2 4 5] ex_q_unit ltac:(lra)) ex_k).
  - cbn [map]. f_equal; [do 2 f_equal|do 2 f_equal]; apply V3_eq; unfold ex_c; ru_spec; lra.
  - apply Forall_cons; [|apply Forall_nil]. unfold depth, ex_q, ex_c; ru_spec; lra.
Qed.

(** C79: moving a point along [right] moves its pixel by fx/depth to larger column numbers, along [up] by fy/depth
    to smaller row numbers (and by skew/depth); the depth is measured along [forward]. *)
Theorem C79_right_and_up_in_the_image q c x a b : unit_quat q ->
  let e := from_rotation_and_camcenter q c in
  let x' := vadd x (vadd (vscl a (right e)) (vscl b (up e))) in
  depth q c x' = depth q c x /\
  depth q c x = vdot (vsub x c) (forward e) /\
  (forall k, depth q c x <> 0 -> exists p,
     world_to_pixel (camera_new (perspective_from k) e) (mkPoints [x; x']) = Some (mkPixels [p;
       mkV2 (px p + (pp_fx k * a - pp_skew k * b) / depth q c x) (py p - pp_fy k * b / depth q c x)])) /\
  (forall k, exists p,
     world_to_pixel (camera_new (orthographic_from k) e) (mkPoints [x; x']) = Some (mkPixels [p;
       mkV2 (px p + op_sx k * a) (py p - op_sy k * b)])).
Proof. exact (C79_lemma q c x a b). Qed.
Print Assumptions C79_right_and_up_in_the_image.

Example C79_case : exists p,
  world_to_pixel (camera_new (perspective_from ex_k) (from_rotation_and_camcenter ex_q ex_c))
    (mkPoints [mkV3 2 4 5; vadd (mkV3 2 4 5) (vadd (vscl 1 (right (from_rotation_and_camcenter ex_q ex_c))) (vscl 2 (up (from_rotation_and_camcenter ex_q ex_c))))])
  = Some (mkPixels [p; mkV2 (px p + 499/10) (py p - 102)]).
Proof.
  destruct (C79_right_and_up_in_the_image ex_q ex_c (mkV3 2 4 5) 1 2 ex_q_unit) as (_ & _ & H & _).
  assert (D : depth ex_q ex_c (mkV3 2 4 5) = 2) by (unfold depth, ex_q, ex_c; ru_spec; field).
  destruct (H ex_k ltac:(lra)) as (p & E). exists p. rewrite E, D. unfold ex_k; cbn [pp_fx pp_fy pp_skew].
  do 3 f_equal. f_equal. f_equal; field.
Qed.

(** C80: the rays of perspective pixels lead to points in front of the camera. *)
Theorem C80_rays_go_forward q c k px : unit_quat q ->
  let e := from_rotation_and_camcenter q c in
  exists rays : RayBundle WorldFrame (SharedOriginRayBundle R) R,
    pixel_to_world (camera_new (perspective_from k) e) (mkPixels px) = Some rays /\
    (exists ds, directions rays = Some ds /\ Forall (fun d => vdot d (forward e) = 1) ds) /\
    (exists pts, point_on_ray rays = Some (mkPoints pts) /\ Forall (fun x => depth q c x = 1) pts) /\
    (forall d, exists pts, point_on_ray_at_distance rays d = Some (mkPoints pts) /\
       (0 < d -> Forall (fun x => 0 < depth q c x <= d) pts) /\
       (d < 0 -> Forall (fun x => depth q c x < 0) pts)).
Proof. exact (C80_lemma q c k px). Qed.
Print Assumptions C80_rays_go_forward.

Example C80_case : exists rays : RayBundle WorldFrame (SharedOriginRayBundle R) R,
  pixel_to_world (camera_new (perspective_from ex_k) (from_rotation_and_camcenter ex_q ex_c)) (mkPixels [mkV2 0 0; mkV2 640 480]) = Some rays /\
  exists a b, point_on_ray_at_distance rays 5 = Some (mkPoints [a; b]) /\ 0 < depth ex_q ex_c a <= 5 /\ 0 < depth ex_q ex_c b <= 5.
Proof.
  destruct (C80_rays_go_forward ex_q ex_c ex_k [mkV2 0 0; mkV2 640 480] ex_q_unit) as (rays & E & _ & _ & H).
  exists rays. split; [exact E|]. destruct (H 5) as (pts & P & F & _). specialize (F ltac:(lra)).
  vm_compute in E. injection E as <-. pose proof P as P'. vm_compute in P'. injection P' as <-.
  inversion F as [|a l Ha Fa]; subst. inversion Fa as [|b l' Hb Fb]; subst.
  do 2 eexists. split; [exact P|]. split; assumption.
Qed.

(** C81: the images of points going to infinity on a line converge to the image of the direction of the line. *)
Theorem C81_vanishing_point q c k x d : unit_quat q -> vdot d (forward (from_rotation_and_camcenter q c)) <> 0 ->
  let cam := camera_new (perspective_from k) (from_rotation_and_camcenter q c) in
  exists v, world_to_pixel cam (mkPoints [vadd c d]) = Some (mkPixels [v]) /\
  forall eps, 0 < eps -> exists T, forall t, T < t -> exists p,
    world_to_pixel cam (mkPoints [vadd x (vscl t d)]) = Some (mkPixels [p]) /\ pdist p v < eps.
Proof. exact (C81_lemma q c k x d). Qed.
Print Assumptions C81_vanishing_point.

Example C81_case : exists v,
  world_to_pixel (camera_new (perspective_from ex_k) (from_rotation_and_camcenter ex_q ex_c)) (mkPoints [vadd ex_c (mkV3 0 1 1)]) = Some (mkPixels [v]) /\
  forall eps, 0 < eps -> exists T, forall t, T < t -> exists p,
    world_to_pixel (camera_new (perspective_from ex_k) (from_rotation_and_camcenter ex_q ex_c)) (mkPoints [vadd (mkV3 7 7 7) (vscl t (mkV3 0 1 1))]) = Some (mkPixels [p]) /\ pdist p v < eps.
Proof.
  apply C81_vanishing_point; [apply ex_q_unit|].
  rewrite ex_forward.  ru_spec; lra.
Qed.

