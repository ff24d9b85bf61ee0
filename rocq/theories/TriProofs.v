(** * TriProofs.v - lemmas behind C84-C88: triangulation *)

From Coq Require Import Reals List Lra Lia Psatz.
From Verif Require Import Scalar Linalg Bundles Extrinsics Perspective Orthographic Camera RayIntersection Spec SpecGeom SpecIsect SpecTri Rows RealBase VecLemmas ExtrinsicsProofs IntrinsicsProofs CameraProofs CamMatProofs GeomProofs IsectBase IsectProofs SpectralProofs.
Import ListNotations.
Local Open Scope R_scope.

Lemma some_inj {A} (a b : A) : Some a = Some b -> a = b.
Proof. intros H. now injection H. Qed.

(** ** C84: cameras of both kinds *)
Lemma persp_view_ray X r : persp_view X r -> ray_direction r <> vO /\ on_line X r.
Proof.
  intros (k & q & c & p & rb & A & B & U & Z & E1 & E2 & E3). cbv zeta in *.
  assert (E : Some r = Some (mkRay (Coords := WorldFrame) c (vscl (/ vz (mv (rotm q) (vsub X c))) (vsub X c)))).
  { rewrite <- (view_ray k q c X A B U Z), E1. cbn [bind]. rewrite E2. cbn [bind]. symmetry. exact E3. }
  apply some_inj in E. subst r. unfold depth, to_camera in Z. set (z := vz (mv (rotm q) (vsub X c))) in *.
  cbn [ray_direction ray_center]. split.
  - intros H. apply Z. unfold z. assert (G : vsub X c = vO).
    { rewrite <- (vscl_1 (vsub X c)), <- (Rinv_r z Z), <- vscl_vscl, H. apply vscl_O. }
    rewrite G, mv_O. reflexivity.
  - exists z. cbn [ray_direction ray_center]. rewrite vscl_vscl, Rinv_r, vscl_1 by exact Z. vring.
Qed.
Lemma ortho_view_ray X r : ortho_view X r -> ray_direction r <> vO /\ on_line X r.
Proof.
  intros (k & q & c & p & rb & A & B & U & E1 & E2 & E3). cbv zeta in *.
  rewrite world_to_pixel_ortho in E1 by exact U. cbn [map] in E1. apply some_inj in E1. subst p.
  rewrite ortho_pixel_to_world in E2 by exact U. cbn [map] in E2. apply some_inj in E2. subst rb.
  unfold to_single_ray in E3. cbn [rb_data rb_type b_to_single_ray SharedDirection_Bundle] in E3.
  apply some_inj in E3. subst r. unfold sd_to_single_ray. cbn [ray_direction ray_center sd_direction].
  rewrite forward_R by exact U. split.
  - apply mv_nonzero; [apply orthogonal_mtr; now apply rotm_orthogonal|]. intros H. apply V3_inv in H. unfold vO in H. cbn in H. lra.
  - exists (depth q c X). cbn [ray_direction ray_center].
    rewrite <- (to_world_to_camera q c X U) at 1. unfold depth.
    assert (P : ortho_unproject_row k (ortho_pixel k (to_camera q c X))
                = mkV3 (vx (to_camera q c X)) (vy (to_camera q c X)) 0).
    { unfold ortho_unproject_row, ortho_pixel. cbn [px py o_sub o_div o_zero R_ops]. apply V3_eq; cbn [vx vy vz]; try reflexivity; field; assumption. }
    rewrite P. unfold to_world. destruct (to_camera q c X) as [y1 y2 y3]. cbn [vx vy vz].
    generalize (mtr (rotm q)). intros m. vring.
Qed.
Lemma C84_lemma svd X rays : svd_sound svd -> (2 <= length rays)%nat ->
  Forall (fun r => persp_view X r \/ ortho_view X r) rays -> well_conditioned rays ->
  let best := best_intersection_of_rays (fun x => Some x) (fun x => x) svd rays in
  best <> Some (Err SvdFailed) -> best = Some (Ok (mkPoints [X])).
Proof.
  intros HS L V W best NF. apply C41_lemma; auto.
  - eapply Forall_impl; [|exact V]. intros r [H|H]; [now apply persp_view_ray in H|now apply ortho_view_ray in H].
  - eapply Forall_impl; [|exact V]. intros r [H|H]; [now apply persp_view_ray in H|now apply ortho_view_ray in H].
Qed.
Lemma C84b_lemma X q c : unit_quat q ->
  (forall k, pp_fx k <> 0 -> pp_fy k <> 0 -> depth q c X <> 0 -> exists s, s <> 0 /\
     persp_view X (mkRay c (vscl s (vsub X c)))) /\
  (forall k, op_sx k <> 0 -> op_sy k <> 0 -> exists x, ortho_view X (mkRay x (forward (frc q c)))).
Proof.
  intros U. split.
  - intros k A B Z. exists (/ depth q c X). split; [now apply Rinv_neq_0_compat|].
    pose proof (view_ray k q c X A B U Z) as E.
    destruct (world_to_pixel (camera_new (perspective_from k) (frc q c)) (mkPoints [X])) as [p|] eqn:E1; [|discriminate].
    cbn [bind] in E.
    destruct (pixel_to_world (camera_new (perspective_from k) (frc q c)) p) as [rb|] eqn:E2; [|discriminate].
    cbn [bind] in E. exists k, q, c, p, rb. auto 10.
  - intros k A B. eexists. do 5 eexists. split; [exact A|]. split; [exact B|]. split; [exact U|]. cbv zeta. split; [|split].
    + apply world_to_pixel_ortho. exact U.
    + apply ortho_pixel_to_world. exact U.
    + reflexivity.
Qed.

(** ** C85: two rays *)
Lemma perpendicular_ends c1 d1 c2 d2 : vcross d1 d2 <> vO -> exists s1 s2,
  let g := vsub (vadd c1 (vscl s1 d1)) (vadd c2 (vscl s2 d2)) in vdot g d1 = 0 /\ vdot g d2 = 0.
Proof.
  intros N. pose proof (vdot_self_pos _ N) as P. rewrite lagrange in P.
  set (w := vsub c2 c1). set (D := vdot d1 d1 * vdot d2 d2 - vdot d1 d2 * vdot d1 d2) in *.
  exists ((vdot w d1 * vdot d2 d2 - vdot w d2 * vdot d1 d2) / D), ((vdot w d1 * vdot d1 d2 - vdot w d2 * vdot d1 d1) / D).
  cbv zeta.
  assert (E : forall s1 s2 d, vdot (vsub (vadd c1 (vscl s1 d1)) (vadd c2 (vscl s2 d2))) d
     = s1 * vdot d1 d - s2 * vdot d2 d - vdot w d) by (intros; unfold w; destruct c1, d1, c2, d2, d; ru_spec; ring).
  rewrite !E, (vdot_comm d2 d1). split; unfold D in *; field; lra.
Qed.
Lemma prj_perp {C} (r : Ray C R) v t : ray_direction r <> vO -> vdot v (ray_direction r) = 0 ->
  prj r (vadd v (vscl t (ray_direction r))) = vopp v.
Proof.
  intros N V. unfold prj. pose proof (vlen_pos _ N) as L. pose proof (vlen_sq (ray_direction r)) as Q.
  assert (D : vdot (vunit (ray_direction r)) (vadd v (vscl t (ray_direction r))) = t * vlen (ray_direction r)).
  { unfold vunit. rewrite vdot_vscl_l, vdot_vadd_r, vdot_vscl_r, (vdot_comm _ v), V, <- Q. field. lra. }
  rewrite D, <- vscl_vscl, vunit_scale by exact N. generalize (ray_direction r). intros. vring.
Qed.
Lemma not_parallel a b : a <> vO -> b <> vO -> Rabs (cosine a b) < 1 -> vcross a b <> vO.
Proof.
  intros A B H E. pose proof (lagrange a b) as L. rewrite E, vdot_O_l in L.
  pose proof (vlen_pos a A) as P1. pose proof (vlen_pos b B) as P2. rewrite <- !vlen_sq in L.
  assert (K : vdot a b = cosine a b * (vlen a * vlen b)) by (unfold cosine; field; lra).
  rewrite K in L.
  assert (Q : (vlen a * vlen b) * (vlen a * vlen b) * (1 - cosine a b * cosine a b) = 0) by lra.
  apply Rmult_integral in Q. destruct Q as [Q|Q].
  - assert (0 < vlen a * vlen b) by now apply Rmult_lt_0_compat. nra.
  - assert (CC : cosine a b * cosine a b = Rabs (cosine a b) * Rabs (cosine a b)) by (rewrite <- Rabs_mult; symmetry; apply Rabs_pos_eq, Rle_0_sqr).
    pose proof (Rabs_pos (cosine a b)). nra.
Qed.
Lemma solution_unique {C} (rays : list (Ray C R)) x y : nonzero_dirs rays -> well_conditioned rays ->
  mv (Smat rays) x = Cvec rays -> mv (Smat rays) y = Cvec rays -> x = y.
Proof.
  intros N W X Y. destruct (V3_dec x y) as [E|E]; [exact E|exfalso].
  assert (P : vsub x y <> vO) by (intros H; now apply E, vsub_eq).
  pose proof (well_conditioned_pos rays _ N W P) as Q. rewrite sum_sq_sin_quad in Q by exact N.
  rewrite mv_vsub, X, Y, vsub_diag, vdot_O_r in Q. lra.
Qed.
Lemma isect_solution svd {C} (rays : list (Ray C R)) y : svd_sound svd -> (2 <= length rays)%nat ->
  nonzero_dirs rays -> well_conditioned rays -> mv (Smat rays) y = Cvec rays ->
  isect svd rays <> Some (Err SvdFailed) -> isect svd rays = Some (Ok (mkPoints [y])).
Proof.
  intros HS L N W E NF. destruct (isect_well svd rays HS L N W NF) as (x & X & S).
  rewrite X. now rewrite (solution_unique rays x y N W S E).
Qed.
Lemma line_dist2_foot y p d t : d <> vO -> vdot (vsub y (vadd p (vscl t d))) d = 0 ->
  line_dist2 y p d = vdot (vsub y (vadd p (vscl t d))) (vsub y (vadd p (vscl t d))).
Proof.
  intros N H. pose proof (vdot_self_pos d N) as P. unfold line_dist2.
  replace (vcross (vsub y p) d) with (vcross (vsub y (vadd p (vscl t d))) d) by vring.
  rewrite lagrange, H. field. lra.
Qed.

Lemma C85_lemma svd {C} (r1 r2 : Ray C R) : svd_sound svd ->
  ray_direction r1 <> vO -> ray_direction r2 <> vO ->
  Rabs (cosine (ray_direction r1) (ray_direction r2)) < 1 - cutoff ->
  let best := best_intersection_of_rays (fun x => Some x) (fun x => x) svd [r1; r2] in
  best <> Some (Err SvdFailed) ->
  exists s1 s2,
    let a := vadd (ray_center r1) (vscl s1 (ray_direction r1)) in
    let b := vadd (ray_center r2) (vscl s2 (ray_direction r2)) in
    vdot (vsub a b) (ray_direction r1) = 0 /\ vdot (vsub a b) (ray_direction r2) = 0 /\
    best = Some (Ok (mkPoints [lerp (1/2) a b])) /\
    sum_sq_dist [r1; r2] (lerp (1/2) a b) = vdist a b * vdist a b / 2.
Proof.
  intros HS N1 N2 Co best NF. pose proof cutoff_pos as CP.
  assert (N : nonzero_dirs [r1; r2]) by (constructor; [exact N1|constructor; [exact N2|constructor]]).
  assert (W : well_conditioned [r1; r2]) by (apply (C40_lemma [] [] [] r1 r2 N Co)).
  destruct (perpendicular_ends (ray_center r1) (ray_direction r1) (ray_center r2) (ray_direction r2)) as (s1 & s2 & P1 & P2).
  { apply not_parallel; auto. lra. }
  exists s1, s2. set (a := vadd (ray_center r1) (vscl s1 (ray_direction r1))) in *.
  set (b := vadd (ray_center r2) (vscl s2 (ray_direction r2))) in *. cbv zeta.
  set (h := vscl (1/2) (vsub b a)).
  assert (H1 : vdot h (ray_direction r1) = 0).
  { unfold h. rewrite vdot_vscl_l. replace (vsub b a) with (vscl (-1) (vsub a b)) by (generalize a b; intros; vring). rewrite vdot_vscl_l, P1. ring. }
  assert (H2 : vdot (vopp h) (ray_direction r2) = 0).
  { unfold h. replace (vopp (vscl (1/2) (vsub b a))) with (vscl (1/2) (vsub a b)) by (generalize a b; intros; vring). rewrite vdot_vscl_l, P2. ring. }
  assert (M1 : vsub (lerp (1/2) a b) (ray_center r1) = vadd h (vscl s1 (ray_direction r1))).
  { unfold lerp, h, a. generalize b. intros. apply V3_eq; ru_spec; field. }
  assert (M2 : vsub (lerp (1/2) a b) (ray_center r2) = vadd (vopp h) (vscl s2 (ray_direction r2))).
  { unfold lerp, h, b. generalize a. intros. apply V3_eq; ru_spec; field. }
  split; [exact P1|]. split; [exact P2|]. split.
  - apply isect_solution; auto.
    rewrite !Smat_cons, !Cvec_cons, Smat_nil.
    assert (Cn : Cvec (C := C) [] = vO) by reflexivity. rewrite Cn.
    assert (Q1 : prj r1 (lerp (1/2) a b) = vadd (prj r1 (ray_center r1)) (vopp h)).
    { rewrite <- (prj_perp r1 h s1 N1 H1), <- M1, prj_vsub. generalize (prj r1 (lerp (1/2) a b)) (prj r1 (ray_center r1)). intros. vring. }
    assert (Q2 : prj r2 (lerp (1/2) a b) = vadd (prj r2 (ray_center r2)) h).
    { assert (X : vopp (vopp h) = h) by (generalize h; intros; vring). rewrite <- X at 1.
      rewrite <- (prj_perp r2 (vopp h) s2 N2 H2), <- M2, prj_vsub. generalize (prj r2 (lerp (1/2) a b)) (prj r2 (ray_center r2)). intros. vring. }
    rewrite Q1, Q2. generalize (prj r1 (ray_center r1)) (prj r2 (ray_center r2)) h. intros. vring.
  - unfold sum_sq_dist, rsum. cbn [map fold_right].
    rewrite (line_dist2_foot _ _ _ s1 N1), (line_dist2_foot _ _ _ s2 N2); fold a; fold b.
    + unfold vdist. rewrite vlen_sq. unfold lerp. generalize a b. intros [a1 a2 a3] [b1 b2 b3]. ru_spec. field.
    + replace (vsub (lerp (1/2) a b) b) with (vopp h); [exact H2|]. unfold lerp, h. generalize a b. intros. apply V3_eq; ru_spec; field.
    + replace (vsub (lerp (1/2) a b) a) with h; [exact H1|]. unfold lerp, h. generalize a b. intros. apply V3_eq; ru_spec; field.
Qed.

(** ** C86: stability *)
Lemma spread_all {C} lam (rays : list (Ray C R)) v : nonzero_dirs rays -> spread lam rays ->
  lam * vdot v v <= sum_sq_sin rays v.
Proof.
  intros N H. destruct (V3_dec v vO) as [->|V].
  - rewrite vdot_O_l. pose proof (sum_sq_sin_nonneg rays vO N). lra.
  - rewrite <- (vunit_scale v V) at 3. rewrite sum_sq_sin_vscl, vlen_sq by exact N.
    specialize (H _ (vunit_len v V)). pose proof (vdot_self_nonneg v). nra.
Qed.
Lemma spread_well {C} lam (rays : list (Ray C R)) : cutoff < lam -> spread lam rays -> well_conditioned rays.
Proof. intros L H v V. specialize (H v V). lra. Qed.
Lemma C86_lemma svd {C} (rays : list (Ray C R)) lam : svd_sound svd -> (2 <= length rays)%nat ->
  nonzero_dirs rays -> cutoff < lam -> spread lam rays ->
  let best := best_intersection_of_rays (fun x => Some x) (fun x => x) svd rays in
  best <> Some (Err SvdFailed) ->
  exists x, best = Some (Ok (mkPoints [x])) /\
    (forall y, sum_sq_dist rays x + lam * (vdist y x)² <= sum_sq_dist rays y) /\
    (forall y e, 0 <= e -> Forall (fun r => line_dist2 y (ray_center r) (ray_direction r) <= e * e) rays ->
       vdist x y <= e * sqrt (INR (length rays) / lam)).
Proof.
  intros HS L N G H best NF. pose proof cutoff_pos as CP.
  destruct (isect_well svd rays HS L N (spread_well lam rays G H) NF) as (x & E & S).
  exists x. split; [exact E|].
  assert (Q : forall y, sum_sq_dist rays x + lam * (vdist y x)² <= sum_sq_dist rays y).
  { intros y. rewrite (sum_sq_dist_diff rays x y N S). unfold vdist, Rsqr. rewrite vlen_sq.
    pose proof (spread_all lam rays (vsub y x) N H). lra. }
  split; [exact Q|]. intros y e E0 F.
  assert (B : sum_sq_dist rays y <= INR (length rays) * (e * e)).
  { unfold sum_sq_dist. clear -F. induction F as [|r l A _ IH].
    - cbn. unfold rsum; cbn. lra.
    - rewrite rsum_cons. change (length (r :: l)) with (S (length l)). rewrite S_INR. lra. }
  specialize (Q y). pose proof (sum_sq_dist_nonneg rays x N) as P.
  assert (Sy : vdist x y = vdist y x).
  { unfold vdist. replace (vsub x y) with (vscl (-1) (vsub y x)) by vring. rewrite vlen_vscl, Rabs_left by lra. ring. }
  rewrite Sy. apply Rsqr_incr_0_var.
  - rewrite Rsqr_mult, Rsqr_sqrt.
    + apply (Rmult_le_reg_l lam); [lra|]. unfold Rsqr at 2.
      replace (lam * (e * e * (INR (length rays) / lam))) with (INR (length rays) * (e * e)) by (field; lra). lra.
    + apply Rmult_le_pos; [apply pos_INR|]. left. apply Rinv_0_lt_compat. lra.
  - apply Rmult_le_pos; [exact E0|apply sqrt_pos].
Qed.
Lemma C86b_lemma {C} (l1 l2 l3 : list (Ray C R)) r1 r2 lam :
  let rays := l1 ++ r1 :: l2 ++ r2 :: l3 in
  nonzero_dirs rays -> Rabs (cosine (ray_direction r1) (ray_direction r2)) <= 1 - lam -> 0 < lam -> spread lam rays.
Proof.
  intros rays N H L0 v V. unfold rays, nonzero_dirs in *.
  apply Forall_app in N. destruct N as (N1 & N). inversion N as [|? ? D1 N']; subst. clear N.
  apply Forall_app in N'. destruct N' as (N2 & N). inversion N as [|? ? D2 N3]; subst. clear N.
  unfold sum_sq_sin. rewrite map_app, rsum_app, rsum_cons, map_app, rsum_app, rsum_cons.
  pose proof (sum_sq_sin_nonneg l1 v N1) as P1. pose proof (sum_sq_sin_nonneg l2 v N2) as P2.
  pose proof (sum_sq_sin_nonneg l3 v N3) as P3. unfold sum_sq_sin in P1, P2, P3.
  assert (V1 : vdot v v = 1) by (rewrite <- vlen_sq, V; ring).
  unfold line_dist2 at 2 4. rewrite vsub_0_r, !cross_dist by assumption. rewrite V1.
  rewrite cosine_unit in H by assumption.
  pose proof (two_rays _ _ v (vunit_dot _ D1) (vunit_dot _ D2) V1) as T.
  specialize (T ltac:(lra)). lra.
Qed.

(** the distance of a point from the ray of a wrong pixel *)
Lemma noise_ray X o p0 r : pp_fx (ob_k o) <> 0 -> pp_fy (ob_k o) <> 0 -> unit_quat (ob_q o) ->
  depth (ob_q o) (ob_c o) X <> 0 -> world_to_pixel (ob_cam o) (mkPoints [X]) = Some (mkPixels [p0]) ->
  (rb <- pixel_to_world (ob_cam o) (mkPixels [ob_p o]) ;; @to_single_ray R _ _ SharedOrigin_Bundle rb) = Some r ->
  ray_direction r <> vO /\ line_dist2 X (ray_center r) (ray_direction r) <= pixel_noise2 X o p0.
Proof.
  destruct o as [k q c p]. unfold ob_cam, pixel_noise2. cbn [ob_k ob_q ob_c ob_p]. intros A B U Z E1 E2.
  unfold depth in *. rewrite world_to_pixel_persp in E1; [|exact U|repeat constructor; exact Z].
  apply some_inj in E1. cbn [map] in E1. assert (P0 : p0 = persp_pixel k (to_camera q c X)).
  { pose proof (f_equal pix_data E1) as F. cbn [pix_data] in F. now injection F. }
  rewrite persp_pixel_to_world in E2 by exact U. cbn [map bind] in E2. unfold to_single_ray in E2.
  cbn [rb_data rb_type b_to_single_ray SharedOrigin_Bundle] in E2. unfold so_to_single_ray in E2. cbn [so_center] in E2.
  apply some_inj in E2. subst r. cbn [ray_center ray_direction].
  set (d := persp_unproject_row k p). assert (Dz : vz d = 1) by reflexivity.
  assert (D0 : mv (mtr (rotm q)) d <> vO).
  { apply mv_nonzero; [apply orthogonal_mtr; now apply rotm_orthogonal|]. intros H. rewrite H in Dz. unfold vO in Dz. cbn in Dz. lra. }
  split; [exact D0|].
  eapply Rle_trans; [apply (proj1 (C39b_lemma X c (mv (mtr (rotm q)) d) D0) (vz (to_camera q c X)))|].
  right. set (z := vz (to_camera q c X)) in *.
  assert (G : vsub X (vadd c (vscl z (mv (mtr (rotm q)) d)))
      = mv (mtr (rotm q)) (vsub (to_camera q c X) (vscl z d))).
  { rewrite mv_vsub, mv_vscl. unfold to_camera. rewrite orthogonal_inv_l by now apply rotm_orthogonal.
    generalize (mv (mtr (rotm q)) d). intros. vring. }
  rewrite G, orthogonal_dot by (apply orthogonal_mtr; now apply rotm_orthogonal).
  rewrite <- (unproject_project k (to_camera q c X) A B Z) in P0 || idtac.
  assert (Y : to_camera q c X = vscl z (persp_unproject_row k p0)).
  { rewrite P0, unproject_project by assumption. fold z. rewrite vscl_vscl, Rinv_r, vscl_1 by exact Z. reflexivity. }
  rewrite Y. unfold d, persp_unproject_row. cbn [o_add o_sub o_mul o_div o_one R_ops]. unfold Rsqr.
  ru_spec. field. auto.
Qed.
Lemma C86c_lemma svd X (obs : list observation) rays lam : svd_sound svd -> (2 <= length obs)%nat ->
  Forall (fun o => pp_fx (ob_k o) <> 0 /\ pp_fy (ob_k o) <> 0 /\ unit_quat (ob_q o) /\ depth (ob_q o) (ob_c o) X <> 0) obs ->
  Forall2 (fun o r => (rb <- pixel_to_world (ob_cam o) (mkPixels [ob_p o]) ;; @to_single_ray R _ _ SharedOrigin_Bundle rb) = Some r) obs rays ->
  cutoff < lam -> spread lam rays ->
  let best := best_intersection_of_rays (fun x => Some x) (fun x => x) svd rays in
  best <> Some (Err SvdFailed) ->
  exists x true_px, best = Some (Ok (mkPoints [x])) /\
    Forall2 (fun o p => world_to_pixel (ob_cam o) (mkPoints [X]) = Some (mkPixels [p])) obs true_px /\
    lam * (vdist X x)² <= rsum (map (fun op => pixel_noise2 X (fst op) (snd op)) (combine obs true_px)).
Proof.
  intros HS L F R2 G H best NF.
  assert (Px : exists true_px, Forall2 (fun o p => world_to_pixel (ob_cam o) (mkPoints [X]) = Some (mkPixels [p])) obs true_px).
  { clear -F. induction F as [|o l (A & B & U & Z) _ (t & IH)]; [exists []; constructor|].
    exists (persp_pixel (ob_k o) (to_camera (ob_q o) (ob_c o) X) :: t). constructor; [|exact IH]. unfold ob_cam.
    rewrite world_to_pixel_persp; [reflexivity|exact U|]. repeat constructor; exact Z. }
  destruct Px as (true_px & Px).
  assert (K : nonzero_dirs rays /\ sum_sq_dist rays X <= rsum (map (fun op => pixel_noise2 X (fst op) (snd op)) (combine obs true_px))).
  { clear -F R2 Px. revert rays true_px R2 Px. induction F as [|o l (A & B & U & Z) _ IH]; intros rays true_px R2 Px;
    inversion R2 as [|? r ? rays' E R2']; subst; inversion Px as [|? p ? px' E' Px']; subst.
    - split; [constructor|]. unfold sum_sq_dist, rsum; cbn. lra.
    - destruct (IH _ _ R2' Px') as (I1 & I2). destruct (noise_ray X o p r A B U Z E' E) as (J1 & J2).
      split; [constructor; assumption|]. unfold sum_sq_dist in *. cbn [combine]. rewrite !rsum_cons. cbn [fst snd]. lra. }
  destruct K as (N & K).
  assert (LL : (2 <= length rays)%nat).
  { replace (length rays) with (length obs); [exact L|]. clear -R2. induction R2; cbn; congruence. }
  destruct (C86_lemma svd rays lam HS LL N G H NF) as (x & E & Q & _).
  exists x, true_px. split; [exact E|]. split; [exact Px|].
  specialize (Q X). pose proof (sum_sq_dist_nonneg rays x N). lra.
Qed.

(** ** C87: approximate decompositions *)
Lemma minimizer_normal {C} (rays : list (Ray C R)) x : (2 <= length rays)%nat -> nonzero_dirs rays -> well_conditioned rays ->
  (forall y, sum_sq_dist rays x <= sum_sq_dist rays y) -> mv (Smat rays) x = Cvec rays.
Proof.
  intros L N W M. destruct (C62_lemma rays) as (svd & HS & NF).
  destruct (isect_well svd rays HS L N W NF) as (x0 & _ & S).
  destruct (V3_dec x0 x) as [<-|D]; [exact S|exfalso].
  assert (P : vsub x x0 <> vO) by (intros H; apply D; symmetry; now apply vsub_eq).
  pose proof (well_conditioned_pos rays _ N W P) as Q. pose proof (sum_sq_dist_diff rays x0 x N S). specialize (M x0). lra.
Qed.
Lemma cauchy a b : Rabs (vdot a b) <= vlen a * vlen b.
Proof.
  apply Rsqr_incr_0_var; [|apply Rmult_le_pos; apply vlen_nonneg]. rewrite <- Rsqr_abs. unfold Rsqr.
  replace (vlen a * vlen b * (vlen a * vlen b)) with (vdot a a * vdot b b) by (rewrite <- !vlen_sq; ring).
  pose proof (lagrange a b). pose proof (vdot_self_nonneg (vcross a b)). lra.
Qed.
Lemma C87_lemma svd {C} (rays : list (Ray C R)) eta lam x : 0 <= eta -> svd_close eta svd -> (2 <= length rays)%nat ->
  nonzero_dirs rays -> cutoff + eta < lam -> spread lam rays ->
  (forall y, sum_sq_dist rays x <= sum_sq_dist rays y) ->
  let best := best_intersection_of_rays (fun x => Some x) (fun x => x) svd rays in
  best <> Some (Err SvdFailed) ->
  exists x', best = Some (Ok (mkPoints [x'])) /\ vdist x' x <= eta / (lam - eta) * vlen x.
Proof.
  intros E0 HS L N G H M best NF. pose proof cutoff_pos as CP.
  assert (W : well_conditioned rays) by (apply (spread_well lam); [lra|exact H]).
  pose proof (minimizer_normal rays x L N W M) as S. clear M.
  unfold best in *. change (isect svd rays <> Some (Err SvdFailed)) in NF.
  change (exists x', isect svd rays = Some (Ok (mkPoints [x'])) /\ vdist x' x <= eta / (lam - eta) * vlen x).
  rewrite isect_R in * by exact L.
  destruct (svd (Smat rays) true true cutoff 100%nat) as [d|] eqn:E;
    [|exfalso; apply NF; unfold my_pinv; rewrite lit_1em7_R, E; reflexivity].
  destruct (HS _ _ _ _ E) as (u & vt & U & V & O1 & O2 & P1 & P2 & P3 & D).
  rewrite (my_pinv_R svd _ d u vt E U V). cbn [bind]. eexists. split; [reflexivity|].
  set (m := mm (mm u (mdiag (svd_s d))) vt) in *.
  assert (Dm : is_svd m u (svd_s d) vt) by (repeat split; auto; apply O1 || apply O2).
  assert (Low : forall w, (lam - eta) * vdot w w <= - vdot w (mv m w)).
  { intros w. pose proof (spread_all lam rays w N H) as Q. rewrite sum_sq_sin_quad in Q by exact N.
    pose proof (cauchy w (vsub (mv m w) (mv (Smat rays) w))) as Ca. specialize (D w). unfold vdist in D.
    rewrite vdot_vsub_r in Ca. pose proof (vlen_nonneg w) as W0.
    assert (Ca2 : vlen w * vlen (vsub (mv m w) (mv (Smat rays) w)) <= eta * vdot w w).
    { rewrite <- vlen_sq. apply Rle_trans with (vlen w * (eta * vlen w)); [now apply Rmult_le_compat_l|lra]. }
    pose proof (Rle_abs (vdot w (mv m w) - vdot w (mv (Smat rays) w))). lra. }
  destruct (sv_large m u (svd_s d) vt Dm) as (A1 & A2 & A3).
  { intros v Hv. specialize (Low v). rewrite <- vlen_sq, Hv in Low. lra. }
  set (x' := mv (pinv_of u (svd_s d) vt) (Cvec rays)).
  assert (Q : mv m x' = mv (Smat rays) x) by (unfold x'; rewrite S; now apply pinv_full_r).
  set (w := vsub x' x).
  assert (Mw : mv m w = vsub (mv (Smat rays) x) (mv m x)) by (unfold w; now rewrite mv_vsub, Q).
  assert (B : vlen (mv m w) <= eta * vlen x).
  { rewrite Mw. replace (vsub (mv (Smat rays) x) (mv m x)) with (vscl (-1) (vsub (mv m x) (mv (Smat rays) x)))
      by (generalize (mv (Smat rays) x) (mv m x); intros; vring).
    rewrite vlen_vscl, Rabs_left by lra. specialize (D x). unfold vdist in D. lra. }
  unfold vdist. fold w. specialize (Low w). pose proof (cauchy w (mv m w)) as Ca.
  pose proof (Rle_abs (- vdot w (mv m w))) as Ab. rewrite Rabs_Ropp in Ab. rewrite <- vlen_sq in Low.
  destruct (Req_dec (vlen w) 0) as [Z|Z].
  - rewrite Z. apply Rmult_le_pos; [|apply vlen_nonneg]. apply Rmult_le_pos; [exact E0|]. left. apply Rinv_0_lt_compat. lra.
  - pose proof (vlen_nonneg w) as W0. apply (Rmult_le_reg_l (lam - eta)); [lra|].
    replace ((lam - eta) * (eta / (lam - eta) * vlen x)) with (eta * vlen x) by (field; lra).
    apply Rle_trans with (vlen (mv m w)); [|exact B].
    apply (Rmult_le_reg_l (vlen w)); [lra|]. lra.
Qed.

(** ** C88: scaling *)
Lemma scale_SC {C} s (rays : list (Ray C R)) :
  Smat (map (scale_ray s) rays) = Smat rays /\ Cvec (map (scale_ray s) rays) = vscl s (Cvec rays).
Proof.
  induction rays as [|r rays (I1 & I2)].
  - split; [reflexivity|]. assert (Cn : Cvec (C := C) [] = vO) by reflexivity. cbn [map]. rewrite Cn. symmetry. apply vscl_O.
  - cbn [map]. split.
    + apply mv_ext. intros v. rewrite !Smat_cons, I1. reflexivity.
    + rewrite !Cvec_cons, I2, vscl_vadd. f_equal. cbn [scale_ray ray_center]. rewrite <- prj_vscl. reflexivity.
Qed.
Lemma C88_lemma svd {C} (rays : list (Ray C R)) s :
  let best l := best_intersection_of_rays (Coords := C) (fun x => Some x) (fun x => x) svd l in
  (forall x, best rays = Some (Ok (mkPoints [x])) -> best (map (scale_ray s) rays) = Some (Ok (mkPoints [vscl s x]))) /\
  (forall e, best rays = Some (Err e) -> best (map (scale_ray s) rays) = Some (Err e)) /\
  (best rays = None -> best (map (scale_ray s) rays) = None).
Proof.
  intros best. destruct (scale_SC s rays) as (E1 & E2).
  destruct (Nat.le_gt_cases 2 (length rays)) as [L|L].
  - assert (A : best rays = isect svd rays) by reflexivity.
    assert (B : best (map (scale_ray s) rays) = isect svd (map (scale_ray s) rays)) by reflexivity.
    rewrite A, B, !isect_R by (try rewrite map_length; exact L). rewrite E1, E2.
    destruct (my_pinv svd (Smat rays)) as [[m|e]|]; cbn [bind]; (split; [|split]); intros; try discriminate; auto.
    assert (X : x = mv m (Cvec rays)).
    { apply some_inj in H. assert (H' : mkPoints (Coords := C) [mv m (Cvec rays)] = mkPoints [x]) by congruence.
      pose proof (f_equal pts_data H') as F. cbn [pts_data] in F. congruence. }
    rewrite X, mv_vscl. reflexivity.
  - assert (A : forall l : list (Ray C R), (length l < 2)%nat -> best l = Some (Err MinimumTwoRaysNeeded)).
    { intros l Hl. unfold best, best_intersection_of_rays. destruct l as [|? [|? l]]; try reflexivity. cbn in Hl. lia. }
    rewrite A by exact L. rewrite A by (rewrite map_length; exact L). repeat split; intros; try discriminate. exact H.
Qed.
