(** * PropTri.v - property theorems C82-C88: uniqueness of cameras and triangulation *)

From Coq Require Import List Reals Lra Lia.
From Verif Require Import Scalar Linalg Bundles Extrinsics Perspective Orthographic Camera RayIntersection Spec SpecGeom SpecIsect SpecTri RealBase VecLemmas ExtrinsicsProofs CamMatProofs IsectBase IsectProofs SpectralProofs UniqueProofs TriProofs PropCamera PropIsect.
Import ListNotations.
Local Open Scope R_scope.

(** C82: two perspective cameras which show the points of some ball, however small, at the same pixels are the same. *)
Theorem C82_images_determine_camera k1 q1 c1 k2 q2 c2 x0 r : unit_quat q1 -> unit_quat q2 ->
  0 < pp_fx k1 -> 0 < pp_fy k1 -> 0 < pp_fx k2 -> 0 < pp_fy k2 -> 0 < r ->
  (forall x, vdist x x0 < r -> depth q1 c1 x <> 0 -> depth q2 c2 x <> 0 ->
     world_to_pixel (camera_new (perspective_from k1) (from_rotation_and_camcenter q1 c1)) (mkPoints [x])
     = world_to_pixel (camera_new (perspective_from k2) (from_rotation_and_camcenter q2 c2)) (mkPoints [x])) ->
  k1 = k2 /\ c1 = c2 /\ rotm q1 = rotm q2.
Proof. exact (C82_lemma k1 q1 c1 k2 q2 c2 x0 r). Qed.
Print Assumptions C82_images_determine_camera.

(** the quaternions [q] and [-q] *)
Example C82_case : rotm ex_q = rotm (qopp ex_q).
Proof.
  assert (U : unit_quat (qopp ex_q)) by (unfold ex_q; ru_spec; lra).
  apply (C82_images_determine_camera ex_k ex_q ex_c ex_k (qopp ex_q) ex_c (mkV3 7 8 9) (1/1000) ex_q_unit U).
  1-4: cbn; lra. 1: lra.
  intros x _ Z1 Z2. rewrite !world_to_pixel_persp; [|exact U|repeat constructor; exact Z2|exact ex_q_unit|repeat constructor; exact Z1].
  cbn [map]. do 4 f_equal. apply V3_eq; unfold ex_q; ru_spec; ring.
Qed.

(** C82: which orthographic cameras show the same picture. *)
Theorem C82_orthographic_images k1 q1 c1 k2 q2 c2 x0 r : unit_quat q1 -> unit_quat q2 ->
  0 < op_sx k1 -> 0 < op_sy k1 -> 0 < op_sx k2 -> 0 < op_sy k2 -> 0 < r ->
  (forall x, vdist x x0 < r ->
     world_to_pixel (camera_new (orthographic_from k1) (from_rotation_and_camcenter q1 c1)) (mkPoints [x])
     = world_to_pixel (camera_new (orthographic_from k2) (from_rotation_and_camcenter q2 c2)) (mkPoints [x])) <->
  op_sx k1 = op_sx k2 /\ op_sy k1 = op_sy k2 /\ rotm q1 = rotm q2 /\
  op_cx k1 - op_cx k2 = op_sx k1 * vx (mv (rotm q1) (vsub c1 c2)) /\
  op_cy k1 - op_cy k2 = op_sy k1 * vy (mv (rotm q1) (vsub c1 c2)).
Proof. exact (C82b_lemma k1 q1 c1 k2 q2 c2 x0 r). Qed.
Print Assumptions C82_orthographic_images.

(** moving an orthographic camera along its axis changes nothing *)
Example C82b_case x : vdist x (mkV3 0 0 0) < 5 ->
  world_to_pixel (camera_new (orthographic_from ex_ok) (from_rotation_and_camcenter ex_q ex_c)) (mkPoints [x])
  = world_to_pixel (camera_new (orthographic_from ex_ok) (from_rotation_and_camcenter ex_q (mkV3 1 2 10))) (mkPoints [x]).
Proof.
  apply (C82_orthographic_images ex_ok ex_q ex_c ex_ok ex_q (mkV3 1 2 10) (mkV3 0 0 0) 5 ex_q_unit ex_q_unit).
  1-4: cbn; lra. 1: lra.
  repeat split; unfold ex_q, ex_c; ru_spec; lra.
Qed.

(** C83: two matrices give the same camera exactly when they are proportional. *)
Theorem C83_same_camera_iff_proportional p p' : mdet (left33 p) <> 0 -> mdet (left33 p') <> 0 ->
  (exists k q q' c,
     from_perspective_matrix p = Some (Ok (camera_new (perspective_from k) (from_rotation_and_camcenter q c))) /\
     from_perspective_matrix p' = Some (Ok (camera_new (perspective_from k) (from_rotation_and_camcenter q' c))) /\ rotm q' = rotm q) <->
  (exists s, s <> 0 /\ p' = hstack (mscl s (left33 p)) (vscl s (col4 p))).
Proof. exact (C83_lemma p p'). Qed.
Print Assumptions C83_same_camera_iff_proportional.

Example C83_case : exists k q q' c,
  from_perspective_matrix (hstack mI (mkV3 1 2 3)) = Some (Ok (camera_new (perspective_from k) (from_rotation_and_camcenter q c))) /\
  from_perspective_matrix (hstack (mscl (-2) mI) (mkV3 (-2) (-4) (-6))) = Some (Ok (camera_new (perspective_from k) (from_rotation_and_camcenter q' c))) /\
  rotm q' = rotm q.
Proof.
  apply (C83_same_camera_iff_proportional (hstack mI (mkV3 1 2 3)) (hstack (mscl (-2) mI) (mkV3 (-2) (-4) (-6)))).
  1,2: ru_spec; lra.
  exists (-2). split; [lra|]. unfold hstack, left33, col4, mscl, mI, vscl. cbn. f_equal; lra.
Qed.

(** C84: every camera of either kind gives a ray along which it sees a point. *)
Theorem C84_views_exist X q c : unit_quat q ->
  (forall k, pp_fx k <> 0 -> pp_fy k <> 0 -> depth q c X <> 0 -> exists s, s <> 0 /\
     persp_view X (mkRay c (vscl s (vsub X c)))) /\
  (forall k, op_sx k <> 0 -> op_sy k <> 0 -> exists x, ortho_view X (mkRay x (forward (from_rotation_and_camcenter q c)))).
Proof. exact (C84b_lemma X q c). Qed.
Print Assumptions C84_views_exist.

Example C84b_case : exists x, ortho_view (mkV3 2 4 5) (mkRay x (forward (from_rotation_and_camcenter ex_q ex_c))).
Proof. apply (proj2 (C84_views_exist (mkV3 2 4 5) ex_q ex_c ex_q_unit) ex_ok); cbn; lra. Qed.

(** C84: the rays along which perspective and orthographic cameras see a point intersect in it. *)
Theorem C84_mixed_triangulation svd X rays : svd_sound svd -> (2 <= length rays)%nat ->
  Forall (fun r => persp_view X r \/ ortho_view X r) rays -> well_conditioned rays ->
  let best := best_intersection_of_rays (fun x => Some x) (fun x => x) svd rays in
  best <> Some (Err SvdFailed) -> best = Some (Ok (mkPoints [X])).
Proof. exact (C84_lemma svd X rays). Qed.
Print Assumptions C84_mixed_triangulation.

(** a perspective camera at (1,2,3) and an orthographic one looking along z *)
Example C84_case : exists svd r1 r2, persp_view (mkV3 2 4 5) r1 /\ ortho_view (mkV3 2 4 5) r2 /\
  best_intersection_of_rays (fun x => Some x) (fun x => x) svd [r1; r2] = Some (Ok (mkPoints [mkV3 2 4 5])).
Proof.
  destruct (proj1 (C84_views_exist (mkV3 2 4 5) ex_q ex_c ex_q_unit) ex_k ex_fx ex_fy) as (s & S & V1).
  { unfold depth, ex_q, ex_c; ru_spec; lra. }
  destruct (proj2 (C84_views_exist (mkV3 2 4 5) ex_q ex_c ex_q_unit) ex_ok) as (x & V2); [cbn; lra|cbn; lra|].
  match type of V1 with persp_view _ ?r => set (r1 := r) in * end. match type of V2 with ortho_view _ ?r => set (r2 := r) in * end.
  destruct (C62_svd_assumption_satisfiable [r1; r2]) as (svd & H & NF). exists svd, r1, r2.
  split; [exact V1|]. split; [exact V2|].
  assert (F : forward (from_rotation_and_camcenter ex_q ex_c) = mkV3 0 0 1).
  { rewrite forward_R by apply ex_q_unit. unfold ex_q. apply V3_eq; ru_spec; field. }
  assert (W : vsub (mkV3 2 4 5) ex_c <> vO) by (unfold ex_c; intros E; apply V3_inv in E; ru_spec; lra).
  assert (W2 : mkV3 0 0 1 <> vO) by (intros E; apply V3_inv in E; cbn in E; lra).
  assert (N : nonzero_dirs [r1; r2]).
  { constructor; [|constructor; [|constructor]]; unfold r1, r2; cbn [ray_direction].
    - intros E. apply W. rewrite <- (vscl_1 (vsub _ _)), <- (Rinv_l s S), <- vscl_vscl, E. apply vscl_O.
    - now rewrite F. }
  apply C84_mixed_triangulation; auto.
  apply (C40_two_rays_suffice [] [] [] r1 r2 N). unfold r1, r2; cbn [ray_direction]. rewrite F.
  replace (mkV3 0 0 1) with (vscl 1 (mkV3 0 0 1)) by apply vscl_1.
  rewrite cosine_vscl; auto; try lra. unfold cosine.
  replace (vlen (vsub (mkV3 2 4 5) ex_c)) with 3 by (symmetry; apply vlen_unique; [lra|unfold ex_c; ru_spec; ring]).
  replace (vlen (mkV3 0 0 1)) with 1 by (symmetry; apply vlen_unique; [lra|ru_spec; ring]).
  replace (vdot (vsub (mkV3 2 4 5) ex_c) (mkV3 0 0 1)) with 2 by (unfold ex_c; ru_spec; ring).
  rewrite Rabs_pos_eq by lra. pose proof cutoff_lt. lra.
Qed.

(** C85: two rays which are not nearly parallel give the middle of their common perpendicular. *)
Theorem C85_two_rays_midpoint svd {C} (r1 r2 : Ray C R) : svd_sound svd ->
  ray_direction r1 <> vO -> ray_direction r2 <> vO ->
  Rabs (cosine (ray_direction r1) (ray_direction r2)) < 1 - cutoff ->
  let best := best_intersection_of_rays (fun x => Some x) (fun x => x) svd [r1; r2] in
  best <> Some (Err SvdFailed) ->
  exists s1 s2,
    let a := vadd (ray_center r1) (vscl s1 (ray_direction r1)) in
    let b := vadd (ray_center r2) (vscl s2 (ray_direction r2)) in
    vdot (vsub a b) (ray_direction r1) = 0 /\ vdot (vsub a b) (ray_direction r2) = 0 /\
    best = Some (Ok (mkPoints [lerp (1/2) a b])) /\
    sum_sq_dist [r1; r2] (lerp (1/2) a b) = vdist a b * vdist a b / 2.
Proof. exact (C85_lemma svd r1 r2). Qed.
Print Assumptions C85_two_rays_midpoint.

Lemma ex_r12_cos : cosine (ray_direction ex_r1) (ray_direction ex_r2) = 0.
Proof. unfold cosine. replace (vdot (ray_direction ex_r1) (ray_direction ex_r2)) with 0 by (cbn; ru_spec; ring). unfold Rdiv. ring. Qed.
Lemma ex_r12_dirs : nonzero_dirs [ex_r1; ex_r2].
Proof. repeat constructor; cbn; unfold vO; intros E; apply V3_inv in E; lra. Qed.
Example C85_case : exists svd,
  best_intersection_of_rays (fun x => Some x) (fun x => x) svd [ex_r1; ex_r2] = Some (Ok (mkPoints [mkV3 3 0 (1/2)])) /\
  sum_sq_dist [ex_r1; ex_r2] (mkV3 3 0 (1/2)) = 1 / 2.
Proof.
  destruct (C62_svd_assumption_satisfiable [ex_r1; ex_r2]) as (svd & H & NF). exists svd.
  pose proof ex_r12_dirs as N. inversion N as [|? ? N1 N']; subst. inversion N' as [|? ? N2 _]; subst.
  destruct (C85_two_rays_midpoint svd ex_r1 ex_r2 H N1 N2) as (s1 & s2 & P1 & P2 & E & D).
  { rewrite ex_r12_cos, Rabs_R0. pose proof cutoff_lt. lra. }
  { exact NF. }
  cbn [ex_r1 ex_r2 ray_direction ray_center] in P1, P2.
  assert (S1 : s1 = 3 / 2) by (ru_spec; lra). assert (S2 : s2 = 0) by (ru_spec; lra). subst.
  assert (M : lerp (1/2) (vadd (ray_center ex_r1) (vscl (3/2) (ray_direction ex_r1))) (vadd (ray_center ex_r2) (vscl 0 (ray_direction ex_r2))) = mkV3 3 0 (1/2)).
  { unfold lerp. cbn [ex_r1 ex_r2 ray_direction ray_center]. apply V3_eq; ru_spec; field. }
  rewrite M in E, D. split; [exact E|]. rewrite D. unfold vdist. rewrite vlen_sq.
  cbn [ex_r1 ex_r2 ray_direction ray_center]. ru_spec; field.
Qed.

(** C86: an angle between two of the rays bounds the spread. *)
Theorem C86_two_rays_spread {C} (l1 l2 l3 : list (Ray C R)) r1 r2 lam :
  let rays := l1 ++ r1 :: l2 ++ r2 :: l3 in
  nonzero_dirs rays -> Rabs (cosine (ray_direction r1) (ray_direction r2)) <= 1 - lam -> 0 < lam -> spread lam rays.
Proof. exact (C86b_lemma l1 l2 l3 r1 r2 lam). Qed.
Print Assumptions C86_two_rays_spread.

Lemma ex_r12_spread : spread 1 [ex_r1; ex_r2].
Proof. apply (C86_two_rays_spread [] [] [] ex_r1 ex_r2 1 ex_r12_dirs); [|lra]. rewrite ex_r12_cos, Rabs_R0. lra. Qed.
Example C86b_case : spread (1/2) [ex_r1; ex_r2].
Proof. intros v V. pose proof (ex_r12_spread v V). lra. Qed.

(** C86: the sum of squares grows around the result; lines which pass close to a point give a result close to it. *)
Theorem C86_stability svd {C} (rays : list (Ray C R)) lam : svd_sound svd -> (2 <= length rays)%nat ->
  nonzero_dirs rays -> cutoff < lam -> spread lam rays ->
  let best := best_intersection_of_rays (fun x => Some x) (fun x => x) svd rays in
  best <> Some (Err SvdFailed) ->
  exists x, best = Some (Ok (mkPoints [x])) /\
    (forall y, sum_sq_dist rays x + lam * (vdist y x)² <= sum_sq_dist rays y) /\
    (forall y e, 0 <= e -> Forall (fun r => line_dist2 y (ray_center r) (ray_direction r) <= e * e) rays ->
       vdist x y <= e * sqrt (INR (length rays) / lam)).
Proof. exact (C86_lemma svd rays lam). Qed.
Print Assumptions C86_stability.

(** both lines pass the point (3,0,0) within distance 1 *)
Example C86_case : exists svd x,
  best_intersection_of_rays (fun x => Some x) (fun x => x) svd [ex_r1; ex_r2] = Some (Ok (mkPoints [x])) /\ vdist x (mkV3 3 0 0) <= 1 * sqrt (2 / 1).
Proof.
  destruct (C62_svd_assumption_satisfiable [ex_r1; ex_r2]) as (svd & H & NF). exists svd.
  destruct (C86_stability svd [ex_r1; ex_r2] 1 H ltac:(simpl; lia) ex_r12_dirs ltac:(pose proof cutoff_lt; lra) ex_r12_spread NF) as (x & E & _ & Q).
  exists x. split; [exact E|]. apply (Q (mkV3 3 0 0) 1); [lra|].
  repeat apply Forall_cons; try apply Forall_nil; unfold line_dist2; cbn [ex_r1 ex_r2 ray_direction ray_center]; ru_spec; lra.
Qed.

(** C86: the effect of wrong pixels on the triangulated point. *)
Theorem C86_pixel_noise svd X (obs : list observation) rays lam : svd_sound svd -> (2 <= length obs)%nat ->
  Forall (fun o => pp_fx (ob_k o) <> 0 /\ pp_fy (ob_k o) <> 0 /\ unit_quat (ob_q o) /\ depth (ob_q o) (ob_c o) X <> 0) obs ->
  Forall2 (fun o r => (rb <- pixel_to_world (ob_cam o) (mkPixels [ob_p o]) ;; @to_single_ray R _ _ SharedOrigin_Bundle rb) = Some r) obs rays ->
  cutoff < lam -> spread lam rays ->
  let best := best_intersection_of_rays (fun x => Some x) (fun x => x) svd rays in
  best <> Some (Err SvdFailed) ->
  exists x true_px, best = Some (Ok (mkPoints [x])) /\
    Forall2 (fun o p => world_to_pixel (ob_cam o) (mkPoints [X]) = Some (mkPixels [p])) obs true_px /\
    lam * (vdist X x)² <= rsum (map (fun op => pixel_noise2 X (fst op) (snd op)) (combine obs true_px)).
Proof. exact (C86c_lemma svd X obs rays lam). Qed.
Print Assumptions C86_pixel_noise.

(** two cameras see (5,0,5) one pixel off: the error of the result is at most 0.13 *)
Definition ex_kn : PerspectiveParams R := mkPP 100 100 0 0 0.
Definition ex_o1 : observation := mkObs ex_kn (mkQuat 0 0 0 1) (mkV3 0 0 0) (mkV2 101 1).
Definition ex_o2 : observation := mkObs ex_kn (mkQuat 0 0 0 1) (mkV3 10 0 0) (mkV2 (-99) 0).
Example C86c_case : exists svd rays x,
  Forall2 (fun o r => (rb <- pixel_to_world (ob_cam o) (mkPixels [ob_p o]) ;; @to_single_ray R _ _ SharedOrigin_Bundle rb) = Some r) [ex_o1; ex_o2] rays /\
  best_intersection_of_rays (fun x => Some x) (fun x => x) svd rays = Some (Ok (mkPoints [x])) /\
  (vdist (mkV3 5 0 5) x)² <= 150 / 10000.
Proof.
  assert (U : unit_quat (mkQuat 0 0 0 1)) by (ru_spec; lra).
  set (r1 := mkRay (Coords := WorldFrame) (mkV3 0 0 0) (mkV3 (101/100) (1/100) 1)).
  set (r2 := mkRay (Coords := WorldFrame) (mkV3 10 0 0) (mkV3 (-99/100) 0 1)).
  assert (R1 : (rb <- pixel_to_world (ob_cam ex_o1) (mkPixels [ob_p ex_o1]) ;; @to_single_ray R _ _ SharedOrigin_Bundle rb) = Some r1).
  { unfold ob_cam, ex_o1. cbn [ob_k ob_q ob_c ob_p]. rewrite CameraProofs.persp_pixel_to_world by exact U. cbn [map bind to_single_ray rb_data rb_type b_to_single_ray SharedOrigin_Bundle].
    unfold so_to_single_ray, r1. cbn [so_center]. do 2 f_equal. apply V3_eq; unfold Rows.persp_unproject_row, ex_kn; ru; ru_spec; field. }
  assert (R2 : (rb <- pixel_to_world (ob_cam ex_o2) (mkPixels [ob_p ex_o2]) ;; @to_single_ray R _ _ SharedOrigin_Bundle rb) = Some r2).
  { unfold ob_cam, ex_o2. cbn [ob_k ob_q ob_c ob_p]. rewrite CameraProofs.persp_pixel_to_world by exact U. cbn [map bind to_single_ray rb_data rb_type b_to_single_ray SharedOrigin_Bundle].
    unfold so_to_single_ray, r2. cbn [so_center]. do 2 f_equal. apply V3_eq; unfold Rows.persp_unproject_row, ex_kn; ru; ru_spec; field. }
  assert (N : nonzero_dirs [r1; r2]) by (repeat constructor; cbn; unfold vO; intros E; apply V3_inv in E; lra).
  assert (S : spread (1/2) [r1; r2]).
  { apply (C86_two_rays_spread [] [] [] r1 r2 (1/2) N); [|lra]. cbn [ray_direction r1 r2]. unfold cosine.
    replace (vdot (mkV3 (101/100) (1/100) 1) (mkV3 (-99/100) 0 1)) with (1/10000) by (ru_spec; field).
    assert (L1 : 1 <= vlen (mkV3 (101/100) (1/100) 1)) by (apply Rsqr_incr_0_var; [|apply vlen_nonneg]; unfold Rsqr; rewrite vlen_sq; ru_spec; lra).
    assert (L2 : 1 <= vlen (mkV3 (-99/100) 0 1)) by (apply Rsqr_incr_0_var; [|apply vlen_nonneg]; unfold Rsqr; rewrite vlen_sq; ru_spec; lra).
    revert L1 L2. generalize (vlen (mkV3 (101/100) (1/100) 1)) (vlen (mkV3 (-99/100) 0 1)). intros l1 l2 L1 L2.
    assert (LL : 1 <= l1 * l2) by (apply Rle_trans with (1 * 1); [lra|apply Rmult_le_compat; lra]).
    rewrite Rabs_pos_eq by (apply Rmult_le_pos; [lra|left; apply Rinv_0_lt_compat; lra]).
    apply Rle_trans with (1/10000 * / 1); [|lra]. apply Rmult_le_compat_l; [lra|]. apply Rinv_le_contravar; lra. }
  destruct (C62_svd_assumption_satisfiable [r1; r2]) as (svd & H & NF).
  destruct (C86_pixel_noise svd (mkV3 5 0 5) [ex_o1; ex_o2] [r1; r2] (1/2) H) as (x & tp & E & T & Q).
  - simpl; lia.
  - repeat apply Forall_cons; try apply Forall_nil; unfold ex_o1, ex_o2, ex_kn; cbn [ob_k ob_q ob_c ob_p pp_fx pp_fy];
    (split; [lra|split; [lra|split; [exact U|unfold depth; ru_spec; lra]]]).
  - constructor; [exact R1|constructor; [exact R2|constructor]].
  - pose proof cutoff_lt; lra.
  - exact S.
  - exact NF.
  - exists svd, [r1; r2], x. split; [constructor; [exact R1|constructor; [exact R2|constructor]]|]. split; [exact E|].
    inversion T as [|? p1 ? ? T1 T']; subst. inversion T' as [|? p2 ? ? T2 T'']; subst. inversion T''; subst.
    unfold ob_cam, ex_o1, ex_o2 in T1, T2. cbn [ob_k ob_q ob_c ob_p] in T1, T2.
    rewrite world_to_pixel_persp in T1; [|exact U|repeat apply Forall_cons; try apply Forall_nil; ru_spec; lra].
    rewrite world_to_pixel_persp in T2; [|exact U|repeat apply Forall_cons; try apply Forall_nil; ru_spec; lra].
    cbn [map] in T1, T2. apply pixels1 in T1, T2.
    assert (P1 : p1 = mkV2 100 0) by (clear - T1; rewrite <- T1; clear T1; apply V2_eq; unfold IntrinsicsProofs.persp_pixel, ex_kn; ru_spec; cbn [px py pp_fx pp_fy pp_skew pp_cx pp_cy]; field).
    assert (P2 : p2 = mkV2 (-100) 0) by (clear - T2; rewrite <- T2; clear T2; apply V2_eq; unfold IntrinsicsProofs.persp_pixel, ex_kn; ru_spec; cbn [px py pp_fx pp_fy pp_skew pp_cx pp_cy]; field).
    rewrite P1, P2 in Q. clear T1 T2 P1 P2. cbn [combine map fst snd] in Q. unfold rsum, pixel_noise2, depth in Q. cbn [fold_right ex_o1 ex_o2 ob_k ob_q ob_c ob_p px py] in Q.
    match type of Q with _ <= ?r => assert (Z : r = 75 / 10000) by (clear; unfold ex_o1, ex_o2, ex_kn, Rsqr; ru_spec; cbn [ob_k ob_q ob_c ob_p px py pp_fx pp_fy pp_skew]; ru_spec; field) end.
    rewrite Z in Q. lra.
Qed.

(** C87: the effect of an inexact decomposition: the error is proportional to the distance from the origin. *)
Theorem C87_approximate_svd svd {C} (rays : list (Ray C R)) eta lam x : 0 <= eta -> svd_close eta svd -> (2 <= length rays)%nat ->
  nonzero_dirs rays -> cutoff + eta < lam -> spread lam rays ->
  (forall y, sum_sq_dist rays x <= sum_sq_dist rays y) ->
  let best := best_intersection_of_rays (fun x => Some x) (fun x => x) svd rays in
  best <> Some (Err SvdFailed) ->
  exists x', best = Some (Ok (mkPoints [x'])) /\ vdist x' x <= eta / (lam - eta) * vlen x.
Proof. exact (C87_lemma svd rays eta lam x). Qed.
Print Assumptions C87_approximate_svd.

Lemma sound_close svd eta : 0 <= eta -> svd_sound svd -> svd_close eta svd.
Proof.
  intros E H m eps n d D. destruct (H m eps n d D) as (u & vt & U & V & O1 & O2 & S1 & S2 & S3 & M).
  exists u, vt. repeat (split; [assumption|]). intros v. rewrite M. unfold vdist. rewrite vsub_diag, vlen_O.
  apply Rmult_le_pos; [exact E|apply vlen_nonneg].
Qed.
(** a routine which is off by 1/100: all singular values are too large *)
Example C87_case : exists svd x, svd_close (1/100) svd /\ ~ svd_sound svd /\
  best_intersection_of_rays (fun x => Some x) (fun x => x) svd [ex_r1; ex_r2] = Some (Ok (mkPoints [x])) /\
  vdist x (mkV3 3 0 (1/2)) <= 1/100 / (1 - 1/100) * vlen (mkV3 3 0 (1/2)).
Proof.
  destruct (C62_svd_assumption_satisfiable [ex_r1; ex_r2]) as (svd & H & NF).
  set (svd' := fun m a b e n => match svd m a b e n with
    | Some d => Some (mkSVD (svd_u d) (vadd (svd_s d) (mkV3 (1/100) (1/100) (1/100))) (svd_vt d)) | None => None end).
  assert (Cl : svd_close (1/100) svd').
  { intros m eps n d D. unfold svd' in D. destruct (svd m true true eps n) as [d0|] eqn:D0; [|discriminate]. apply some_inj in D. subst d.
    destruct (H m eps n d0 D0) as (u & vt & U & V & O1 & O2 & S1 & S2 & S3 & M). exists u, vt. cbn [svd_u svd_vt svd_s].
    destruct (svd_s d0) as [s1 s2 s3]. unfold vadd. cbn [vx vy vz] in *. repeat (split; [assumption || lra|]). intros v.
    rewrite <- M. replace (mdiag (mkV3 (s1 + 1/100) (s2 + 1/100) (s3 + 1/100))) with (mkM33 (s1 + 1/100) 0 0 0 (s2 + 1/100) 0 0 0 (s3 + 1/100)) by reflexivity.
    unfold vdist. rewrite !mv_mm, <- mv_vsub.
    replace (vsub (mv (mkM33 (s1 + 1/100) 0 0 0 (s2 + 1/100) 0 0 0 (s3 + 1/100)) (mv vt v)) (mv (mdiag (mkV3 s1 s2 s3)) (mv vt v)))
      with (vscl (1/100) (mv vt v)) by (generalize (mv vt v); intros [a b c]; unfold mdiag; apply V3_eq; ru_spec; field).
    rewrite orthogonal_len, vlen_vscl, orthogonal_len, Rabs_pos_eq by (assumption || lra). right; reflexivity. }
  assert (NF' : best_intersection_of_rays (fun x => Some x) (fun x => x) svd' [ex_r1; ex_r2] <> Some (Err SvdFailed)).
  { change (isect svd' [ex_r1; ex_r2] <> Some (Err SvdFailed)). rewrite isect_R by (simpl; lia).
    change (isect svd [ex_r1; ex_r2] <> Some (Err SvdFailed)) in NF. rewrite isect_R in NF by (simpl; lia).
    destruct (svd (Smat [ex_r1; ex_r2]) true true cutoff 100%nat) as [d|] eqn:D.
    - destruct (H _ _ _ _ D) as (u & vt & U & V & _).
      assert (D' : svd' (Smat [ex_r1; ex_r2]) true true cutoff 100%nat = Some (mkSVD (svd_u d) (vadd (svd_s d) (mkV3 (1/100) (1/100) (1/100))) (svd_vt d))).
      { unfold svd'. now rewrite D. }
      rewrite (my_pinv_R svd' _ _ u vt D' U V). cbn [bind]. discriminate.
    - exfalso. apply NF. unfold my_pinv. rewrite lit_1em7_R, D. reflexivity. }
  assert (M : forall y, sum_sq_dist [ex_r1; ex_r2] (mkV3 3 0 (1/2)) <= sum_sq_dist [ex_r1; ex_r2] y).
  { destruct C85_case as (svd0 & _). intros [x y z]. unfold sum_sq_dist, rsum, line_dist2. cbn [map fold_right ex_r1 ex_r2 ray_center ray_direction]. ru_spec.
    pose proof (Rle_0_sqr (x - 3)). pose proof (Rle_0_sqr y). pose proof (Rle_0_sqr (2 * z - 1)). unfold Rsqr in *.
    match goal with |- ?l <= _ => replace l with (1/2) by field end.
    match goal with |- _ <= ?r => replace r with (y * y + z * z + ((x - 3) * (x - 3) + (z - 1) * (z - 1))) by field end. lra. }
  destruct (C87_approximate_svd svd' [ex_r1; ex_r2] (1/100) 1 (mkV3 3 0 (1/2)) ltac:(lra) Cl ltac:(simpl; lia) ex_r12_dirs ltac:(pose proof cutoff_lt; lra) ex_r12_spread M NF')
    as (x & E & Q).
  exists svd', x. split; [exact Cl|]. split; [|split; [exact E|exact Q]].
  intros So. change (isect svd [ex_r1; ex_r2] <> Some (Err SvdFailed)) in NF. rewrite isect_R in NF by (simpl; lia).
  destruct (svd (Smat [ex_r1; ex_r2]) true true cutoff 100%nat) as [d|] eqn:D.
  - assert (D' : svd' (Smat [ex_r1; ex_r2]) true true cutoff 100%nat = Some (mkSVD (svd_u d) (vadd (svd_s d) (mkV3 (1/100) (1/100) (1/100))) (svd_vt d))).
    { unfold svd'. now rewrite D. }
    destruct (H _ _ _ _ D) as (u & vt & U & V & _ & _ & S1 & S2 & S3 & M1).
    destruct (So _ _ _ _ D') as (u' & vt' & U' & V' & O1 & O2 & _ & _ & _ & M2). cbn [svd_u svd_vt svd_s] in *.
    rewrite U in U'. rewrite V in V'. apply some_inj in U', V'. subst u' vt'.
    rewrite <- M1 in M2.
    assert (K : mv (mdiag (vadd (svd_s d) (mkV3 (1/100) (1/100) (1/100)))) (mkV3 1 0 0) = mv (mdiag (svd_s d)) (mkV3 1 0 0)).
    { apply (f_equal (fun m => mv (mtr u) (mv m (mv (mtr vt) (mkV3 1 0 0))))) in M2.
      rewrite !mv_mm, (orthogonal_inv_r vt), !(orthogonal_inv_l u) in M2 by assumption. exact M2. }
    apply V3_inv in K. destruct (svd_s d) as [a b c]. unfold mdiag in K. ru_spec. lra.
  - apply NF. unfold my_pinv. rewrite lit_1em7_R, D. reflexivity.
Qed.

(** C88: scaling the scene scales the result, for any SVD routine and in degenerate cases too. *)
Theorem C88_scaling svd {C} (rays : list (Ray C R)) s :
  let best l := best_intersection_of_rays (Coords := C) (fun x => Some x) (fun x => x) svd l in
  (forall x, best rays = Some (Ok (mkPoints [x])) -> best (map (scale_ray s) rays) = Some (Ok (mkPoints [vscl s x]))) /\
  (forall e, best rays = Some (Err e) -> best (map (scale_ray s) rays) = Some (Err e)) /\
  (best rays = None -> best (map (scale_ray s) rays) = None).
Proof. exact (C88_lemma svd rays s). Qed.
Print Assumptions C88_scaling.

Example C88_case svd x : best_intersection_of_rays (fun x => Some x) (fun x => x) svd [ex_r1; ex_r2] = Some (Ok (mkPoints [x])) ->
  best_intersection_of_rays (fun x => Some x) (fun x => x) svd [mkRay (Coords := WorldFrame) (vscl 3 (mkV3 0 0 0)) (mkV3 2 0 0); mkRay (vscl 3 (mkV3 3 0 1)) (mkV3 0 1 0)]
  = Some (Ok (mkPoints [vscl 3 x])).
Proof. exact (proj1 (C88_scaling svd [ex_r1; ex_r2] 3) x). Qed.

