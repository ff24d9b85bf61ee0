(** * GeomProofs.v - lemmas behind C73-C82 *)

From Coq Require Import Reals List Lra Psatz.
From Verif Require Import Scalar Linalg Bundles Extrinsics Perspective Orthographic Camera Spec SpecGeom Rows RealBase VecLemmas ExtrinsicsProofs FromViewProofs IntrinsicsProofs CameraProofs CamMatProofs.
Import ListNotations.
Local Open Scope R_scope.

Lemma world_to_pixel_ortho k q c pts : unit_quat q ->
  world_to_pixel (camera_new (orthographic_from k) (frc q c)) (mkPoints pts)
  = Some (mkPixels (map (fun x => ortho_pixel k (to_camera q c x)) pts)).
Proof.
  intros U. unfold world_to_pixel. cbn [camera_new cam_intrinsics cam_extrinsics].
  rewrite world_to_camera_R by exact U. cbn [bind].
  rewrite (proj1 (C21_lemma k)). now rewrite map_map.
Qed.

(** ** C73: the optical axis *)
Lemma axis_camera q c s : unit_quat q ->
  to_camera q c (vadd c (vscl s (forward (frc q c)))) = mkV3 0 0 s.
Proof.
  intros U. rewrite forward_R by exact U. unfold to_camera.
  replace (vsub (vadd c (vscl s (mv (mtr (rotm q)) (mkV3 0 0 1)))) c) with (mv (mtr (rotm q)) (mkV3 0 0 s)) by vring.
  apply orthogonal_inv_r. now apply rotm_orthogonal.
Qed.
Lemma camera_axis q c x : unit_quat q -> vx (to_camera q c x) = 0 -> vy (to_camera q c x) = 0 ->
  x = vadd c (vscl (depth q c x) (forward (frc q c))).
Proof.
  intros U A B. rewrite <- (to_world_to_camera q c x U) at 1. unfold depth. 
  rewrite forward_R by exact U. destruct (to_camera q c x) as [a b d]. cbn [vx vy vz] in *. subst.
  unfold to_world. vring.
Qed.

Lemma C73_lemma q c : unit_quat q ->
  let e := frc q c in
  (forall k s, s <> 0 -> world_to_pixel (camera_new (perspective_from k) e) (mkPoints [vadd c (vscl s (forward e))])
     = Some (mkPixels [mkV2 (pp_cx k) (pp_cy k)])) /\
  (forall k x, pp_fx k <> 0 -> pp_fy k <> 0 -> depth q c x <> 0 ->
     world_to_pixel (camera_new (perspective_from k) e) (mkPoints [x]) = Some (mkPixels [mkV2 (pp_cx k) (pp_cy k)]) ->
     x = vadd c (vscl (depth q c x) (forward e))) /\
  (forall k s, world_to_pixel (camera_new (orthographic_from k) e) (mkPoints [vadd c (vscl s (forward e))])
     = Some (mkPixels [mkV2 (op_cx k) (op_cy k)])) /\
  (forall k x, op_sx k <> 0 -> op_sy k <> 0 ->
     world_to_pixel (camera_new (orthographic_from k) e) (mkPoints [x]) = Some (mkPixels [mkV2 (op_cx k) (op_cy k)]) ->
     x = vadd c (vscl (depth q c x) (forward e))).
Proof.
  intros U e. unfold e. repeat split; intros.
  - rewrite world_to_pixel_persp; [|exact U|].
    + cbn [map]. rewrite axis_camera by exact U. do 3 f_equal. unfold persp_pixel; cbn [vx vy vz]; f_equal; field; assumption.
    + constructor; [|constructor]. now rewrite axis_camera.
  - rewrite world_to_pixel_persp in H2; [|exact U|now constructor]. cbn [map] in H2.
    assert (E : persp_pixel k (to_camera q c x) = mkV2 (pp_cx k) (pp_cy k)) by congruence.
    unfold depth in H1. unfold persp_pixel in E.
    assert (Y : vy (to_camera q c x) = 0).
    { apply (f_equal py) in E. cbn [py] in E. 
      assert (G : pp_fy k * vy (to_camera q c x) / vz (to_camera q c x) = 0) by lra.
      unfold Rdiv in G. apply Rmult_integral in G as [G|G]; [|now apply Rinv_neq_0_compat in H1].
      apply Rmult_integral in G as [G|G]; [contradiction|exact G]. }
    apply camera_axis; [exact U| |exact Y].
    apply (f_equal px) in E. cbn [px] in E. rewrite Y in E.
    assert (G : pp_fx k * vx (to_camera q c x) / vz (to_camera q c x) = 0) by (unfold Rdiv in *; lra).
    unfold Rdiv in G. apply Rmult_integral in G as [G|G]; [|now apply Rinv_neq_0_compat in H1].
    apply Rmult_integral in G as [G|G]; [contradiction|exact G].
  - rewrite world_to_pixel_ortho by exact U. cbn [map]. rewrite axis_camera by exact U. do 3 f_equal.
    unfold ortho_pixel; cbn [vx vy vz]; f_equal; ring.
  - rewrite world_to_pixel_ortho in H1 by exact U. cbn [map] in H1.
    assert (E : ortho_pixel k (to_camera q c x) = mkV2 (op_cx k) (op_cy k)) by congruence.
    unfold ortho_pixel in E. pose proof (f_equal px E) as E1. pose proof (f_equal py E) as E2. cbn [px py] in *.
    apply camera_axis; [exact U| |].
    + apply (Rmult_eq_reg_l (op_sx k)); [lra|assumption].
    + apply (Rmult_eq_reg_l (op_sy k)); [lra|assumption].
Qed.

(** the target of from_view *)
Lemma C73b_lemma roll c l u : l <> c -> vcross u (vsub l c) <> vO ->
  let e := from_view_with_roll roll c l u in
  (forall k s, s <> 0 -> world_to_pixel (camera_new (perspective_from k) e) (mkPoints [lerp s c l])
     = Some (mkPixels [mkV2 (pp_cx k) (pp_cy k)])) /\
  (forall k s, world_to_pixel (camera_new (orthographic_from k) e) (mkPoints [lerp s c l])
     = Some (mkPixels [mkV2 (op_cx k) (op_cy k)])).
Proof.
  intros Hlc Hc e. destruct (from_view_R roll c l u Hlc Hc) as (q & E & U & Z & _).
  assert (Hd := vcross_nonzero_r _ _ Hc). pose proof (vlen_pos _ Hd) as L.
  assert (P : forall s, lerp s c l = vadd c (vscl (s * vlen (vsub l c)) (forward (frc q c)))).
  { intros s. rewrite forward_R by exact U. rewrite Z. unfold view_dir. rewrite <- vscl_vscl, vunit_scale by exact Hd.
    unfold lerp. vring. }
  unfold e. rewrite E. destruct (C73_lemma q c U) as (A & _ & B & _). split; intros; rewrite P.
  - apply A. apply Rmult_integral_contrapositive_currified; lra.
  - apply B.
Qed.

(** ** C74, C75: segments and visible regions *)
Lemma to_camera_lerp q c s a b : to_camera q c (lerp s a b) = lerp s (to_camera q c a) (to_camera q c b).
Proof. unfold to_camera, lerp. generalize (rotm q). vring. Qed.
Lemma depth_lerp q c s a b : depth q c (lerp s a b) = (1 - s) * depth q c a + s * depth q c b.
Proof. unfold depth. now rewrite to_camera_lerp. Qed.
Lemma mix_pos s x y : 0 <= s <= 1 -> 0 < x -> 0 < y -> 0 < (1 - s) * x + s * y.
Proof. intros. destruct (Req_EM_T s 0) as [->|]; nra. Qed.
Lemma vz_lerp s a b : vz (lerp s a b) = (1 - s) * vz a + s * vz b.
Proof. reflexivity. Qed.
Lemma frac_01 x y : 0 <= x -> 0 <= y -> 0 < x + y -> 0 <= y / (x + y) <= 1.
Proof.
  intros X Y D. pose proof (Rinv_0_lt_compat _ D). split; [unfold Rdiv; nra|].
  apply (Rmult_le_reg_r (x + y)); [exact D|]. replace (y / (x + y) * (x + y)) with y by (field; lra). lra.
Qed.
Lemma persp_pixel_lerp k s a b : 0 < vz a -> 0 < vz b -> 0 < (1 - s) * vz a + s * vz b ->
  persp_pixel k (lerp s a b) = lerp2 (s * vz b / ((1 - s) * vz a + s * vz b)) (persp_pixel k a) (persp_pixel k b).
Proof.
  intros A B D. destruct k, a as [a1 a2 a3], b as [b1 b2 b3]. unfold persp_pixel, lerp, lerp2 in *. ru_spec. cbn in *.
  apply V2_eq; cbn; field; repeat split; lra.
Qed.

Lemma C74_lemma q c a b : unit_quat q ->
  (forall k, 0 < depth q c a -> 0 < depth q c b ->
   let cam := camera_new (perspective_from k) (frc q c) in
   exists pa pb, world_to_pixel cam (mkPoints [a; b]) = Some (mkPixels [pa; pb]) /\
     (forall s, 0 <= s <= 1 -> exists s', 0 <= s' <= 1 /\
        world_to_pixel cam (mkPoints [lerp s a b]) = Some (mkPixels [lerp2 s' pa pb])) /\
     (forall s', 0 <= s' <= 1 -> exists s, 0 <= s <= 1 /\
        world_to_pixel cam (mkPoints [lerp s a b]) = Some (mkPixels [lerp2 s' pa pb]))) /\
  (forall k, let cam := camera_new (orthographic_from k) (frc q c) in
   exists pa pb, world_to_pixel cam (mkPoints [a; b]) = Some (mkPixels [pa; pb]) /\
     (forall s, world_to_pixel cam (mkPoints [lerp s a b]) = Some (mkPixels [lerp2 s pa pb]))).
Proof.
  intros U. split.
  - intros k A B cam. unfold cam.
    exists (persp_pixel k (to_camera q c a)), (persp_pixel k (to_camera q c b)). unfold depth in *.
    split; [|split].
    + rewrite world_to_pixel_persp; [reflexivity|exact U|].
      constructor; [lra|]. constructor; [lra|constructor].
    + intros s S. pose proof (mix_pos s _ _ S A B) as D.
      exists (s * vz (to_camera q c b) / ((1 - s) * vz (to_camera q c a) + s * vz (to_camera q c b))).
      split.
      * apply frac_01; [nra|nra|exact D].
      * rewrite world_to_pixel_persp; [|exact U|].
        -- cbn [map]. rewrite to_camera_lerp, persp_pixel_lerp by assumption. reflexivity.
        -- constructor; [|constructor]. rewrite to_camera_lerp, vz_lerp. lra.
    + intros s S.
      set (da := vz (to_camera q c a)) in *. set (db := vz (to_camera q c b)) in *.
      assert (D : 0 < (1 - s) * db + s * da) by now apply mix_pos.
      set (t := s * da / ((1 - s) * db + s * da)).
      assert (T : 0 <= t <= 1).
      { unfold t. apply frac_01; [nra|nra|exact D]. }
      pose proof (mix_pos t _ _ T A B) as D'.
      exists t. split; [exact T|].
      rewrite world_to_pixel_persp; [|exact U|].
      * cbn [map]. rewrite to_camera_lerp, persp_pixel_lerp by assumption. do 3 f_equal. f_equal.
        fold da db. clearbody da db.
        assert (X : (1 - t) * da + t * db = da * db / ((1 - s) * db + s * da)) by (unfold t; field; lra).
        rewrite X. unfold t. field. repeat split; lra.
      * constructor; [|constructor]. rewrite to_camera_lerp, vz_lerp. fold da db. lra.
  - intros k cam. unfold cam.
    exists (ortho_pixel k (to_camera q c a)), (ortho_pixel k (to_camera q c b)).
    split; [now rewrite world_to_pixel_ortho|]. intros s. rewrite world_to_pixel_ortho by exact U. cbn [map].
    rewrite to_camera_lerp. do 3 f_equal. unfold ortho_pixel, lerp2, lerp. ru_spec. f_equal; cbn; ring.
Qed.

(** with an end behind the camera the drawn segment is not the image *)
Lemma C74b_lemma k : pp_fx k <> 0 ->
  let cam := camera_new (perspective_from k) (frc (mkQuat 0 0 0 1) vO) in
  exists a b s pa pb p, 0 < s < 1 /\ world_to_pixel cam (mkPoints [a; b; lerp s a b]) = Some (mkPixels [pa; pb; p]) /\
    forall s', 0 <= s' <= 1 -> p <> lerp2 s' pa pb.
Proof.
  intros F cam. exists (mkV3 1 0 1), (mkV3 1 0 (-1)), (1/4). do 3 eexists.
  assert (U : unit_quat (mkQuat 0 0 0 1)) by (ru_spec; lra).
  assert (TC : forall x, to_camera (mkQuat 0 0 0 1) vO x = x) by (intros [x y z]; apply V3_eq; ru_spec; ring).
  split; [lra|]. split.
  - unfold cam. rewrite world_to_pixel_persp; [|exact U|].
    + cbn [map]. rewrite !TC. reflexivity.
    + repeat apply Forall_cons; [| | |apply Forall_nil]; rewrite TC; unfold lerp, vadd, vscl; cbn [vx vy vz]; lra.
  - intros s S E. apply (f_equal px) in E. unfold persp_pixel, lerp, lerp2 in E. ru_spec. cbn in E.
    assert (X : pp_fx k * (s * 2 + 1) = 0).
    { replace ((1 - 1 / 4) * 1 + 1 / 4 * 1) with 1 in E by lra. replace ((1 - 1 / 4) * 0 + 1 / 4 * 0) with 0 in E by lra.
      replace ((1 - 1 / 4) * 1 + 1 / 4 * -1) with (1/2) in E by lra.
      replace (pp_fx k * 1 / (1 / 2)) with (2 * pp_fx k) in E by field.
      replace (pp_fx k * 1 / 1) with (pp_fx k) in E by field.
      replace (pp_fx k * 1 / -1) with (- pp_fx k) in E by field.
      unfold Rdiv in E. nra. }
    apply Rmult_integral in X as [X|X]; [contradiction|lra].
Qed.

Lemma in_rect_lerp2 lo hi s a b : 0 <= s <= 1 -> in_rect lo hi a -> in_rect lo hi b -> in_rect lo hi (lerp2 s a b).
Proof. unfold in_rect, lerp2. cbn. intros. nra. Qed.
Lemma C75_lemma q c lo hi a b s : unit_quat q -> 0 <= s <= 1 ->
  (forall k, let cam := camera_new (perspective_from k) (frc q c) in
   let visible x := 0 < depth q c x /\ exists p, world_to_pixel cam (mkPoints [x]) = Some (mkPixels [p]) /\ in_rect lo hi p in
   visible a -> visible b -> visible (lerp s a b)) /\
  (forall k, let cam := camera_new (orthographic_from k) (frc q c) in
   let visible x := exists p, world_to_pixel cam (mkPoints [x]) = Some (mkPixels [p]) /\ in_rect lo hi p in
   visible a -> visible b -> visible (lerp s a b)).
Proof.
  intros U S. split; intros k cam visible.
  - intros (A & pa & EA & IA) (B & pb & EB & IB). split.
    + rewrite depth_lerp. now apply mix_pos.
    + destruct (proj1 (C74_lemma q c a b U) k A B) as (pa' & pb' & E & F & _).
      destruct (F s S) as (s' & S' & G). exists (lerp2 s' pa' pb'). split; [exact G|].
      assert (X : pa' = pa /\ pb' = pb).
      { unfold cam in EA, EB. unfold depth in A, B.
        rewrite world_to_pixel_persp in EA, EB, E; try exact U; cbn [map] in *; try (split; congruence);
        repeat apply Forall_cons; try apply Forall_nil; lra. }
      destruct X as [-> ->]. now apply in_rect_lerp2.
  - intros (pa & EA & IA) (pb & EB & IB).
    destruct (proj2 (C74_lemma q c a b U) k) as (pa' & pb' & E & F).
    exists (lerp2 s pa' pb'). split; [apply F|].
    assert (X : pa' = pa /\ pb' = pb).
    { unfold cam in EA, EB. rewrite world_to_pixel_ortho in EA, EB, E; try exact U; cbn [map] in *; split; congruence. }
    destruct X as [-> ->]. now apply in_rect_lerp2.
Qed.
