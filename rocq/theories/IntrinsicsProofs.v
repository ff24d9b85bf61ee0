(** * IntrinsicsProofs.v - lemmas behind C13-C16, C18-C23 over the reals *)

From Coq Require Import Reals List Lra Psatz.
From Verif Require Import Scalar Linalg Bundles Extrinsics Perspective Orthographic Spec Rows RealBase VecLemmas ExtrinsicsProofs FromViewProofs.
Import ListNotations.
Local Open Scope R_scope.

Definition persp_pixel (k : PerspectiveParams R) (p : V3 R) : V2 R :=
  mkV2 (pp_fx k * vx p / vz p + pp_skew k * vy p / vz p + pp_cx k)
       (pp_fy k * vy p / vz p + pp_cy k).

Lemma persp_project_R k p : vz p <> 0 ->
  persp_project_row (ip_cache_p (perspective_from k)) p = persp_pixel k p.
Proof.
  destruct k, p as [x y z]; simpl; intros Z. apply V2_eq; ru; unfold persp_pixel; simpl; field; lra.
Qed.

Lemma C13_lemma (k : PerspectiveParams R) pts : Forall (fun p => vz p <> 0) pts ->
  camera_to_pixel (perspective_from k) (mkPoints pts)
  = Some (mkPixels (map (fun p =>
      mkV2 (pp_fx k * vx p / vz p + pp_skew k * vy p / vz p + pp_cx k)
           (pp_fy k * vy p / vz p + pp_cy k)) pts)).
Proof.
  intros H. cbn [camera_to_pixel Perspective_Intrinsics]. rewrite persp_camera_to_pixel_rows; cbn [pts_data].
  do 2 f_equal. induction H; simpl; [reflexivity|]. f_equal; [|assumption]. now apply persp_project_R.
Qed.

(** Projection ignores nonzero scaling. *)
Lemma persp_project_scale k s p : s <> 0 -> vz p <> 0 ->
  persp_project_row (ip_cache_p (perspective_from k)) (vscl s p)
  = persp_project_row (ip_cache_p (perspective_from k)) p.
Proof.
  intros S Z. rewrite !persp_project_R.
  - destruct p; unfold persp_pixel; apply V2_eq; ru_spec; field; auto.
  - assumption.
  - destruct p; ru_spec. now apply Rmult_integral_contrapositive_currified.
Qed.
Lemma persp_roundtrip k px : pp_fx k <> 0 -> pp_fy k <> 0 ->
  persp_project_row (ip_cache_p (perspective_from k)) (persp_unproject_row k px) = px.
Proof.
  intros A B. rewrite persp_project_R by (simpl; lra).
  destruct k, px; apply V2_eq; unfold persp_pixel; ru; field; auto.
Qed.

Lemma so_at_distance_R (c : V3 R) d dir :
  so_at_distance_row c d dir = vadd c (vscl (d / vlen dir) dir).
Proof. destruct c, dir; reflexivity. Qed.
Lemma sd_at_distance_R (c : V3 R) d dir :
  sd_at_distance_row dir d c = vadd c (vscl (d / vlen dir) dir).
Proof. destruct c, dir. apply V3_eq; ru; ring. Qed.
Lemma unproject_len k px : 0 < vlen (persp_unproject_row k px).
Proof.
  apply vlen_pos. intros E. apply (f_equal vz) in E. cbn in E. lra.
Qed.

Lemma C14_lemma (k : PerspectiveParams R) px : pp_fx k <> 0 -> pp_fy k <> 0 ->
  exists rays : RayBundle CameraFrame (SharedOriginRayBundle R) R,
    pixel_to_camera (perspective_from k) (mkPixels px) = Some rays /\
    (exists pts, point_on_ray rays = Some pts /\
                 camera_to_pixel (perspective_from k) pts = Some (mkPixels px)) /\
    (forall d, d <> 0 -> exists pts, point_on_ray_at_distance rays d = Some pts /\
                 camera_to_pixel (perspective_from k) pts = Some (mkPixels px)).
Proof.
  intros A B. eexists. split.
  { cbn [pixel_to_camera Perspective_Intrinsics]. now rewrite persp_pixel_to_camera_rows. }
  split; [|intros d D]; eexists; (split;
    [unfold point_on_ray, point_on_ray_at_distance; cbn -[so_point_on_ray so_point_on_ray_at_distance]; autorewrite with rows; reflexivity|]);
    cbn [camera_to_pixel Perspective_Intrinsics]; rewrite persp_camera_to_pixel_rows; cbn [pts_data];
    rewrite !map_map, map_id_ext; try reflexivity; intros p.
  - rewrite <- (persp_roundtrip k p A B) at 2. f_equal. cbn [so_center]. tospec. apply vadd_0_l.
  - rewrite so_at_distance_R. cbn [so_center ip_params perspective_from].
    pose proof (unproject_len k p) as L.
    replace (vadd _ _) with (vscl (d / vlen (persp_unproject_row k p)) (persp_unproject_row k p))
      by (symmetry; apply vadd_0_l).
    rewrite persp_project_scale.
    + now apply persp_roundtrip.
    + apply Rmult_integral_contrapositive_currified; [assumption|apply Rinv_neq_0_compat; lra].
    + cbn; lra.
Qed.

Lemma persp_unproject_project k p : pp_fx k <> 0 -> pp_fy k <> 0 -> vz p <> 0 ->
  vscl (vz p) (persp_unproject_row k (persp_pixel k p)) = p.
Proof.
  intros A B Z. destruct k, p; unfold persp_pixel in *; apply V3_eq; ru; field; auto.
Qed.

Lemma C15_lemma (k : PerspectiveParams R) p : pp_fx k <> 0 -> pp_fy k <> 0 -> vz p <> 0 ->
  exists px dir (rays : RayBundle CameraFrame (SharedOriginRayBundle R) R),
    camera_to_pixel (perspective_from k) (mkPoints [p]) = Some px /\
    pixel_to_camera (perspective_from k) px = Some rays /\
    centers rays = Some [vO] /\
    directions rays = Some [dir] /\
    p = vscl (vz p) dir /\
    (0 < vz p -> point_on_ray_at_distance rays (vlen p) = Some (mkPoints [p])).
Proof.
  intros A B Z. do 3 eexists. split; [apply C13_lemma; now constructor|].
  split; [cbn [pixel_to_camera Perspective_Intrinsics]; now rewrite persp_pixel_to_camera_rows|].
  cbn [map pix_data].
  split; [unfold centers; cbn -[so_centers]; rewrite so_centers_rows; reflexivity|].
  split; [unfold directions; cbn -[so_directions]; rewrite so_directions_rows; reflexivity|].
  cbn [ip_params perspective_from]. fold (persp_pixel k p).
  set (d := persp_unproject_row k (persp_pixel k p)).
  assert (E : p = vscl (vz p) d) by (symmetry; now apply persp_unproject_project).
  split; [exact E|]. intros P.
  unfold point_on_ray_at_distance; cbn -[so_point_on_ray_at_distance]. rewrite so_at_distance_rows.
  cbn [map]. do 3 f_equal. fold (persp_pixel k p). fold d. rewrite so_at_distance_R. cbn [so_center].
  pose proof (unproject_len k (persp_pixel k p)) as L. fold d in L.
  assert (Lp : vlen p = vz p * vlen d).
  { rewrite E at 1. rewrite vlen_vscl, Rabs_right by lra. reflexivity. }
  rewrite Lp. replace (vz p * vlen d / vlen d) with (vz p) by (field; lra).
  rewrite <- E. apply vadd_0_l.
Qed.

Lemma C16_lemma (k : PerspectiveParams R) a b : pp_fx k <> 0 -> pp_fy k <> 0 -> vz a <> 0 -> vz b <> 0 ->
  (camera_to_pixel (perspective_from k) (mkPoints [a]) = camera_to_pixel (perspective_from k) (mkPoints [b])
   <-> exists s, s <> 0 /\ a = vscl s b) /\
  camera_to_pixel (perspective_from k) (mkPoints [vopp a]) = camera_to_pixel (perspective_from k) (mkPoints [a]).
Proof.
  intros A B Za Zb.
  assert (G : forall p, vz p <> 0 -> camera_to_pixel (perspective_from k) (mkPoints [p])
              = Some (mkPixels [persp_pixel k p])).
  { intros p Zp. rewrite C13_lemma by now constructor. reflexivity. }
  split; [split|].
  - rewrite !G by assumption. intros E.
    assert (E' : persp_pixel k a = persp_pixel k b) by congruence.
    exists (vz a / vz b). split.
    + apply Rmult_integral_contrapositive_currified; [assumption|now apply Rinv_neq_0_compat].
    + pose proof (persp_unproject_project k a A B Za) as Pa.
      pose proof (persp_unproject_project k b A B Zb) as Pb. rewrite E' in Pa.
      set (d := persp_unproject_row k (persp_pixel k b)) in *.
      transitivity (vscl (vz a / vz b) (vscl (vz b) d)); [|now rewrite Pb].
      rewrite vscl_vscl. rewrite <- Pa at 1. f_equal. field. assumption.
  - intros (s & S & ->). rewrite !G; auto. do 3 f_equal.
    destruct b; unfold persp_pixel; apply V2_eq; ru_spec; field; auto.
  - rewrite !G; auto.
    + do 3 f_equal. destruct a; unfold persp_pixel; apply V2_eq; ru_spec; field; lra.
    + destruct a; ru_spec. lra.
Qed.

(** ** from_normalized_3x4_matrix *)
Lemma from_normalized_ok {T} {O : Ops T} (p : M34 T) k : from_normalized_3x4_matrix p = Ok k ->
  k = perspective_from (mkPP (p00 p) (p11 p) (p01 p) (p02 p) (p12 p)).
Proof.
  unfold from_normalized_3x4_matrix.
  repeat match goal with |- context [if ?b then _ else _] => destruct b; [discriminate|] end.
  intros E; injection E as <-. reflexivity.
Qed.

Lemma C18_lemma {T} {O : Ops T} :
  (o_eqb o_zero o_zero = true -> o_eqb o_one o_one = true ->
   forall fx fy skew cx cy : T,
   from_normalized_3x4_matrix
     (mkM34 fx skew cx o_zero  o_zero fy cy o_zero  o_zero o_zero o_one o_zero)
   = Ok (perspective_from (mkPP fx fy skew cx cy))) /\
  (forall p k, from_normalized_3x4_matrix p = Ok k ->
     ipp_fx k = p00 p /\ ipp_fy k = p11 p /\ ipp_skew k = p01 p /\ ipp_cx k = p02 p /\ ipp_cy k = p12 p /\
     (forall pts, camera_to_pixel k pts
        = camera_to_pixel (perspective_from (mkPP (p00 p) (p11 p) (p01 p) (p02 p) (p12 p))) pts) /\
     (forall px, pixel_to_camera k px
        = pixel_to_camera (perspective_from (mkPP (p00 p) (p11 p) (p01 p) (p02 p) (p12 p))) px)).
Proof.
  split.
  - intros Z U fx fy skew cx cy. unfold from_normalized_3x4_matrix, relative_ne, relative_eq; simpl.
    rewrite Z, U. reflexivity.
  - intros p k E. apply from_normalized_ok in E. subst k. repeat split.
Qed.

Lemma relative_eq_0_R x : relative_eq x 0 = true <-> Rabs x <= / 4503599627370496.
Proof.
  unfold relative_eq; cbn [o_eqb o_isinf o_abs o_sub o_leb o_ltb o_mul o_eps R_ops orb].
  assert (E : 0 < / 4503599627370496 < 1) by lra. set (eps := / 4503599627370496) in *. clearbody eps.
  rewrite Rminus_0_r, Rabs_R0.
  destruct (Reqb x 0) eqn:A.
  - apply Reqb_true in A; subst. rewrite Rabs_R0. split; intros; [lra|reflexivity].
  - apply Reqb_false in A. destruct (Rleb (Rabs x) eps) eqn:B.
    + apply Rleb_true in B. tauto.
    + apply Rleb_false in B. replace (Rltb (Rabs x) 0) with false
        by (symmetry; apply Rltb_false, Rabs_pos).
      rewrite Rleb_true. pose proof (Rabs_pos_lt x A). split; intros; nra.
Qed.
Lemma relative_eq_1_R x : relative_eq x 1 = true <-> Rabs (x - 1) <= Rmax (Rabs x) 1 * / 4503599627370496.
Proof.
  unfold relative_eq; cbn [o_eqb o_isinf o_abs o_sub o_leb o_ltb o_mul o_eps R_ops orb].
  assert (E : 0 < / 4503599627370496 < 1) by lra. set (eps := / 4503599627370496) in *. clearbody eps.
  rewrite Rabs_R1.
  destruct (Reqb x 1) eqn:A.
  - apply Reqb_true in A; subst. rewrite Rminus_diag_eq, Rabs_R0 by reflexivity.
    split; intros; [|reflexivity]. pose proof (Rmax_r (Rabs 1) 1). nra.
  - apply Reqb_false in A. destruct (Rleb (Rabs (x - 1)) eps) eqn:B.
    + apply Rleb_true in B. pose proof (Rmax_r (Rabs x) 1). split; intros; [nra|reflexivity].
    + apply Rleb_false in B. rewrite Rleb_true.
      destruct (Rltb (Rabs x) 1) eqn:C; [apply Rltb_true in C|apply Rltb_false in C].
      * rewrite Rmax_right by lra. tauto.
      * rewrite Rmax_left by lra. tauto.
Qed.
Lemma relative_ne_iff {T} {O : Ops T} (a b : T) : relative_ne a b = true <-> ~ relative_eq a b = true.
Proof. unfold relative_ne. destruct (relative_eq a b); simpl; split; congruence. Qed.

Lemma from_normalized_err_iff {T} {O : Ops T} (p : M34 T) :
  from_normalized_3x4_matrix p = Err InvalidInput <->
  ~ relative_eq (p03 p) o_zero = true \/ ~ relative_eq (p10 p) o_zero = true \/
  ~ relative_eq (p13 p) o_zero = true \/ ~ relative_eq (p20 p) o_zero = true \/
  ~ relative_eq (p21 p) o_zero = true \/ ~ relative_eq (p23 p) o_zero = true \/
  ~ relative_eq (p22 p) o_one = true.
Proof.
  rewrite <- !relative_ne_iff. unfold from_normalized_3x4_matrix.
  repeat match goal with |- context [if ?b then _ else _] => destruct b end; split; intros H; auto 10;
    try discriminate; repeat (destruct H as [H|H]; [discriminate|]); discriminate.
Qed.
Lemma from_normalized_total {T} {O : Ops T} (p : M34 T) :
  from_normalized_3x4_matrix p = Err InvalidInput \/ exists k, from_normalized_3x4_matrix p = Ok k.
Proof.
  unfold from_normalized_3x4_matrix.
  repeat match goal with |- context [if ?b then _ else _] => destruct b end; eauto.
Qed.

Lemma C19_lemma (p : M34 R) :
  (from_normalized_3x4_matrix p = Err InvalidInput <->
   / 4503599627370496 < Rabs (p03 p) \/ / 4503599627370496 < Rabs (p10 p) \/
   / 4503599627370496 < Rabs (p13 p) \/ / 4503599627370496 < Rabs (p20 p) \/
   / 4503599627370496 < Rabs (p21 p) \/ / 4503599627370496 < Rabs (p23 p) \/
   Rmax (Rabs (p22 p)) 1 * / 4503599627370496 < Rabs (p22 p - 1)) /\
  (from_normalized_3x4_matrix p = Err InvalidInput \/ exists k, from_normalized_3x4_matrix p = Ok k).
Proof.
  split; [|apply from_normalized_total].
  rewrite from_normalized_err_iff. cbn [o_zero o_one R_ops].
  rewrite !relative_eq_0_R, relative_eq_1_R.
  assert (N : forall a b : R, ~ a <= b <-> b < a) by (intros; split; intros; lra).
  now rewrite !N.
Qed.

Lemma C20_lemma :
  exists (p : M34 R) k,
    from_normalized_3x4_matrix p = Ok k /\ ipp_fx k = 0 /\ ipp_fy k = 0 /\
    mdet (left33 p) = 0 /\
    (forall x, vz x <> 0 -> camera_to_pixel k (mkPoints [x]) = Some (mkPixels [mkV2 0 0])).
Proof.
  exists (mkM34 0 0 0 0  0 0 0 0  0 0 1 0), (perspective_from (mkPP 0 0 0 0 0)).
  split; [|split; [reflexivity|split; [reflexivity|split]]].
  - refine (proj1 (C18_lemma (T := R)) _ _ 0 0 0 0 0); apply Reqb_true; reflexivity.
  - ru_spec; ring.
  - intros x Z. rewrite C13_lemma by now constructor. cbn [map]. do 3 f_equal. simpl. f_equal; field; assumption.
Qed.

(** ** Orthographic *)
Definition ortho_pixel (k : OrthographicParams R) (p : V3 R) : V2 R :=
  mkV2 (op_sx k * vx p + op_cx k) (op_sy k * vy p + op_cy k).
Lemma ortho_project_R k p : ortho_project_row k p = ortho_pixel k p.
Proof. destruct k, p; apply V2_eq; unfold ortho_pixel; ru; ring. Qed.

Lemma C21_lemma (k : OrthographicParams R) :
  (forall pts, camera_to_pixel (orthographic_from k) (mkPoints pts)
     = Some (mkPixels (map (fun p => mkV2 (op_sx k * vx p + op_cx k) (op_sy k * vy p + op_cy k)) pts))) /\
  (op_sx k <> 0 -> op_sy k <> 0 -> forall a b,
     camera_to_pixel (orthographic_from k) (mkPoints [a]) = camera_to_pixel (orthographic_from k) (mkPoints [b])
     <-> vx a = vx b /\ vy a = vy b).
Proof.
  assert (G : forall pts, camera_to_pixel (orthographic_from k) (mkPoints pts)
     = Some (mkPixels (map (ortho_pixel k) pts))).
  { intros pts. cbn [camera_to_pixel Orthographic_Intrinsics]. rewrite ortho_camera_to_pixel_rows.
    do 2 f_equal. apply map_ext. apply ortho_project_R. }
  split; [exact G|]. intros A B a b. rewrite !G. cbn [map]. split.
  - intros E0. assert (E : ortho_pixel k a = ortho_pixel k b) by congruence. unfold ortho_pixel in E.
    assert (E1 : op_sx k * vx a + op_cx k = op_sx k * vx b + op_cx k) by congruence.
    assert (E2 : op_sy k * vy a + op_cy k = op_sy k * vy b + op_cy k) by congruence.
    split; [apply (Rmult_eq_reg_l (op_sx k))|apply (Rmult_eq_reg_l (op_sy k))]; lra.
  - intros [E1 E2]. unfold ortho_pixel. now rewrite E1, E2.
Qed.

Lemma ortho_roundtrip k px t : op_sx k <> 0 -> op_sy k <> 0 ->
  ortho_project_row k (vadd (ortho_unproject_row k px) (vscl t (mkV3 0 0 1))) = px.
Proof. intros A B. destruct k, px; apply V2_eq; ru; field; auto. Qed.

Lemma C22_lemma (k : OrthographicParams R) : op_sx k <> 0 -> op_sy k <> 0 ->
  (forall px, exists rays : RayBundle CameraFrame (SharedDirectionRayBundle R) R,
    pixel_to_camera (orthographic_from k) (mkPixels px) = Some rays /\
    (exists pts, point_on_ray rays = Some pts /\
                 camera_to_pixel (orthographic_from k) pts = Some (mkPixels px)) /\
    (forall d, exists pts, point_on_ray_at_distance rays d = Some pts /\
                 camera_to_pixel (orthographic_from k) pts = Some (mkPixels px))) /\
  (forall p, exists px (rays : RayBundle CameraFrame (SharedDirectionRayBundle R) R),
    camera_to_pixel (orthographic_from k) (mkPoints [p]) = Some px /\
    pixel_to_camera (orthographic_from k) px = Some rays /\
    centers rays = Some [mkV3 (vx p) (vy p) 0] /\
    directions rays = Some [mkV3 0 0 1] /\
    point_on_ray_at_distance rays (vz p) = Some (mkPoints [p])).
Proof.
  intros A B.
  assert (L : vlen (mkV3 0 0 1) = 1) by (apply vlen_1; ru_spec; ring).
  split.
  - intros px. eexists. split.
    { cbn [pixel_to_camera Orthographic_Intrinsics]. now rewrite ortho_pixel_to_camera_rows. }
    split; [|intros d]; eexists; (split;
      [unfold point_on_ray, point_on_ray_at_distance; cbn -[sd_point_on_ray sd_point_on_ray_at_distance];
       autorewrite with rows; reflexivity|]);
      cbn [camera_to_pixel Orthographic_Intrinsics]; rewrite ortho_camera_to_pixel_rows; cbn [pts_data];
      rewrite !map_map, map_id_ext; try reflexivity; intros p.
    + rewrite <- (ortho_roundtrip k p 1 A B) at 2. f_equal. cbn [sd_direction]. tospec.
      rewrite vadd_comm, vscl_1. reflexivity.
    + rewrite sd_at_distance_R. apply ortho_roundtrip; assumption.
  - intros p. do 2 eexists. split; [exact (proj1 (C21_lemma k) [p])|].
    split; [cbn [pixel_to_camera Orthographic_Intrinsics]; now rewrite ortho_pixel_to_camera_rows|].
    cbn [map pix_data io_params orthographic_from]. fold (ortho_pixel k p).
    assert (E : ortho_unproject_row k (ortho_pixel k p) = mkV3 (vx p) (vy p) 0).
    { destruct k, p; unfold ortho_pixel in *; apply V3_eq; ru; field; auto. }
    rewrite E.
    split; [unfold centers; cbn -[sd_centers]; now rewrite sd_centers_rows|].
    split; [unfold directions; cbn -[sd_directions]; now rewrite sd_directions_rows|].
    unfold point_on_ray_at_distance; cbn -[sd_point_on_ray_at_distance]. rewrite sd_at_distance_rows.
    cbn [map]. do 3 f_equal. rewrite sd_at_distance_R. cbn [sd_direction sd_new_plusz_shared_direction].
    cbn [o_zero o_one R_ops]. rewrite L. destruct p; apply V3_eq; ru_spec; field.
Qed.

(** ** Points on rays *)
Lemma at_distance_ok (c d : V3 R) dist : d <> vO ->
  let p := vadd c (vscl (dist / vlen d) d) in
  (dist / vlen d) * vlen d = dist /\ vdist p c = Rabs dist /\
  (0 < dist -> 0 < vdot (vsub p c) d).
Proof.
  intros D p. pose proof (vlen_pos d D) as L.
  assert (E : vsub p c = vscl (dist / vlen d) d) by (unfold p; vring).
  split; [field; lra|]. split.
  - unfold vdist. rewrite E, vlen_vscl.
    unfold Rdiv. rewrite Rabs_mult, (Rabs_right (/ vlen d)); [field; lra|].
    apply Rle_ge, Rlt_le, Rinv_0_lt_compat, L.
  - intros H. rewrite E, vdot_vscl_l, <- vlen_sq.
    replace (dist / vlen d * (vlen d * vlen d)) with (dist * vlen d) by (field; lra).
    now apply Rmult_lt_0_compat.
Qed.

Lemma C23_lemma Coords :
  (forall (b : RayBundle Coords (SharedOriginRayBundle R) R),
     point_on_ray b = Some (mkPoints (map (fun d => vadd (so_center (rb_type b)) d) (rb_data b))) /\
     (Forall (fun d => d <> vO) (rb_data b) -> forall dist,
      exists pts, point_on_ray_at_distance b dist = Some (mkPoints pts) /\
        Forall2 (fun d p => exists t, t * vlen d = dist /\ p = vadd (so_center (rb_type b)) (vscl t d) /\
                   vdist p (so_center (rb_type b)) = Rabs dist /\
                   (0 < dist -> 0 < vdot (vsub p (so_center (rb_type b))) d)) (rb_data b) pts)) /\
  (forall (b : RayBundle Coords (SharedDirectionRayBundle R) R),
     point_on_ray b = Some (mkPoints (map (fun c => vadd c (sd_direction (rb_type b))) (rb_data b))) /\
     (sd_direction (rb_type b) <> vO -> forall dist,
      exists pts, point_on_ray_at_distance b dist = Some (mkPoints pts) /\
        Forall2 (fun c p => exists t, t * vlen (sd_direction (rb_type b)) = dist /\
                   p = vadd c (vscl t (sd_direction (rb_type b))) /\
                   vdist p c = Rabs dist /\
                   (0 < dist -> 0 < vdot (vsub p c) (sd_direction (rb_type b)))) (rb_data b) pts)).
Proof.
  split; intros [data [c]]; cbn [rb_type rb_data so_center sd_direction]; split.
  - unfold point_on_ray; cbn -[so_point_on_ray]. now rewrite so_point_on_ray_rows.
  - intros H dist. eexists. split.
    { unfold point_on_ray_at_distance; cbn -[so_point_on_ray_at_distance]. now rewrite so_at_distance_rows. }
    induction H as [|d l D F IH]; [constructor|]. cbn [map]. constructor; [|exact IH].
    exists (dist / vlen d). rewrite so_at_distance_R. cbn [so_center].
    destruct (at_distance_ok c d dist D) as (H1 & H2 & H3). repeat split; auto.
  - unfold point_on_ray; cbn -[sd_point_on_ray]. rewrite sd_point_on_ray_rows. do 2 f_equal.
    apply map_ext. intros a. cbn [sd_direction]. tospec. apply vadd_comm.
  - intros D dist. eexists. split.
    { unfold point_on_ray_at_distance; cbn -[sd_point_on_ray_at_distance]. now rewrite sd_at_distance_rows. }
    induction data as [|a l IH]; [constructor|]. cbn [map]. constructor; [|exact IH].
    exists (dist / vlen c). rewrite sd_at_distance_R. cbn [sd_direction].
    destruct (at_distance_ok a c dist D) as (H1 & H2 & H3). repeat split; auto.
Qed.
