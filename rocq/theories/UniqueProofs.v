(** * UniqueProofs.v - lemmas behind C82, C83: a camera is determined by its images *)

From Coq Require Import Reals List Lra Psatz.
From Verif Require Import Scalar Linalg Bundles Extrinsics Perspective Orthographic Camera Spec SpecGeom Rows RealBase VecLemmas ExtrinsicsProofs FromViewProofs IntrinsicsProofs CameraProofs CamMatProofs GeomProofs GeomProofs2.
Import ListNotations.
Local Open Scope R_scope.

(** ** Quadratic polynomials which vanish near 0 *)
Lemma avoid e t1 t2 : 0 < e -> exists e', 0 < e' <= e /\ forall t, 0 < t < e' -> t <> t1 /\ t <> t2.
Proof.
  intros E.
  assert (A : forall e s, 0 < e -> exists e', 0 < e' <= e /\ forall t, 0 < t < e' -> t <> s).
  { intros e0 s E0. destruct (Rle_or_lt s 0).
    - exists e0. split; [lra|]. intros; lra.
    - exists (Rmin e0 s). pose proof (Rmin_l e0 s). pose proof (Rmin_r e0 s).
      split; [split; [now apply Rmin_glb_lt|assumption]|]. intros; lra. }
  destruct (A e t1 E) as (e1 & B1 & C1). destruct (A e1 t2 ltac:(lra)) as (e2 & B2 & C2).
  exists e2. split; [lra|]. intros t T. split; [apply C1; lra|now apply C2].
Qed.
Lemma quad_zero a b c e t1 t2 : 0 < e ->
  (forall t, 0 < t < e -> t <> t1 -> t <> t2 -> a + t * b + t * t * c = 0) -> a = 0 /\ b = 0 /\ c = 0.
Proof.
  intros E H. destruct (avoid e t1 t2 E) as (e' & B & C).
  assert (G : forall t, 0 < t < e' -> a + t * b + t * t * c = 0).
  { intros t T. destruct (C t T). apply H; auto; lra. }
  pose proof (G (e' / 2) ltac:(lra)) as G1. pose proof (G (e' / 3) ltac:(lra)) as G2. pose proof (G (e' / 4) ltac:(lra)) as G3.
  assert (X : e' * b = 0 /\ e' * e' * c = 0 /\ a = 0).
  { assert (Q1 : a + e' * b / 2 + e' * e' * c / 4 = 0) by lra.
    assert (Q2 : a + e' * b / 3 + e' * e' * c / 9 = 0) by lra.
    assert (Q3 : a + e' * b / 4 + e' * e' * c / 16 = 0) by lra. lra. }
  destruct X as (X1 & X2 & ->). apply Rmult_integral in X1. apply Rmult_integral in X2.
  assert (e' * e' <> 0) by (apply Rmult_integral_contrapositive_currified; lra).
  destruct X1; [lra|]. destruct X2; [contradiction|]. auto.
Qed.
Lemma vquad_zero a b c e t1 t2 : 0 < e ->
  (forall t, 0 < t < e -> t <> t1 -> t <> t2 -> vadd a (vadd (vscl t b) (vscl (t * t) c)) = vO) -> a = vO /\ b = vO /\ c = vO.
Proof.
  intros E H. destruct a as [a1 a2 a3], b as [b1 b2 b3], c as [c1 c2 c3].
  assert (K : forall t, 0 < t < e -> t <> t1 -> t <> t2 ->
    a1 + t * b1 + t * t * c1 = 0 /\ a2 + t * b2 + t * t * c2 = 0 /\ a3 + t * b3 + t * t * c3 = 0).
  { intros t T N1 N2. specialize (H t T N1 N2). apply V3_inv in H. unfold vadd, vscl, vO in H. cbn [vx vy vz] in H. lra. }
  destruct (quad_zero a1 b1 c1 e t1 t2 E) as (-> & -> & ->). { intros; now apply K. }
  destruct (quad_zero a2 b2 c2 e t1 t2 E) as (-> & -> & ->). { intros; now apply K. }
  destruct (quad_zero a3 b3 c3 e t1 t2 E) as (-> & -> & ->). { intros; now apply K. }
  auto.
Qed.

(** ** Proportional linear maps *)
Lemma zero_matrix_vec m v : mdet m <> 0 -> mv m v = vO -> v = vO.
Proof.
  intros D E. rewrite <- (mv_I v), <- (minv_l m D), mv_mm, E. apply mv_O.
Qed.
Lemma eigen_all m : (forall v, vcross v (mv m v) = vO) -> exists s, m = mscl s mI.
Proof.
  intros H. exists (m00 m).
  pose proof (H (mkV3 1 0 0)) as H1. pose proof (H (mkV3 0 1 0)) as H2. pose proof (H (mkV3 0 0 1)) as H3.
  pose proof (H (mkV3 1 1 0)) as H4. pose proof (H (mkV3 1 0 1)) as H5. clear H.
  destruct m as [a b c d e f g h i].
  apply V3_inv in H1. apply V3_inv in H2. apply V3_inv in H3. apply V3_inv in H4. apply V3_inv in H5.
  ru_spec. apply M33_eq; ru_spec; lra.
Qed.
Lemma proportional a b : mdet b <> 0 -> (forall v, vcross (mv a v) (mv b v) = vO) -> exists s, a = mscl s b.
Proof.
  intros D H. destruct (eigen_all (mm a (minv b))) as (s & E).
  - intros v. specialize (H (mv (minv b) v)). rewrite <- (mv_mm b), minv_r, mv_I, <- mv_mm in H by exact D.
    rewrite vcross_anti, H. vring.
  - exists s. rewrite <- (mm_I_r a), <- (minv_l b D), mm_assoc, E, mm_mscl_l. now rewrite mm_I_l.
Qed.
Lemma cross_all m u : mdet m <> 0 -> (forall v, vcross (mv m v) u = vO) -> u = vO.
Proof.
  intros D H. assert (G : forall w, vcross w u = vO).
  { intros w. rewrite <- (mv_I w), <- (minv_r m D), mv_mm. apply H. }
  pose proof (G (mkV3 1 0 0)) as H1. pose proof (G (mkV3 0 1 0)) as H2. clear G H.
  destruct u as [x y z]. apply V3_inv in H1. apply V3_inv in H2. ru_spec. apply V3_eq; ru_spec; lra.
Qed.

(** ** A vector which is orthogonal to neither of two unit vectors *)
Lemma good_vector f g : vdot f f = 1 -> vdot g g = 1 -> exists w, vdot w f <> 0 /\ vdot w g <> 0.
Proof.
  intros F G. destruct (Req_dec (vdot f g) (-1)) as [E|N].
  - exists f. rewrite F, E. lra.
  - exists (vadd f g). rewrite !vdot_vadd_l, F, G, (vdot_comm g f). lra.
Qed.

Definition affine_cross (m1 m2 : M33 R) (c1 c2 x : V3 R) : V3 R := vcross (mv m1 (vsub x c1)) (mv m2 (vsub x c2)).
Lemma affine_cross_line m1 m2 c1 c2 x v t :
  affine_cross m1 m2 c1 c2 (vadd x (vscl t v))
  = vadd (affine_cross m1 m2 c1 c2 x)
     (vadd (vscl t (vadd (vcross (mv m1 (vsub x c1)) (mv m2 v)) (vcross (mv m1 v) (mv m2 (vsub x c2)))))
           (vscl (t * t) (vcross (mv m1 v) (mv m2 v)))).
Proof.
  unfold affine_cross. replace (vsub (vadd x (vscl t v)) c1) with (vadd (vsub x c1) (vscl t v)) by vring.
  replace (vsub (vadd x (vscl t v)) c2) with (vadd (vsub x c2) (vscl t v)) by vring.
  rewrite !mv_vadd, !mv_vscl. generalize (mv m1 (vsub x c1)) (mv m1 v) (mv m2 (vsub x c2)) (mv m2 v). intros. vring.
Qed.
Lemma affine_nonzero d w t : w <> 0 -> t <> - d / w -> d + t * w <> 0.
Proof. intros W N E. apply N. apply (Rmult_eq_reg_r w); [|exact W]. field_simplify; [lra|exact W]. Qed.

(** the cross product vanishes everywhere if it does off two planes in a ball *)
Lemma affine_cross_everywhere m1 m2 c1 c2 f1 f2 x0 r : vdot f1 f1 = 1 -> vdot f2 f2 = 1 -> 0 < r ->
  (forall x, vdist x x0 < r -> vdot (vsub x c1) f1 <> 0 -> vdot (vsub x c2) f2 <> 0 -> affine_cross m1 m2 c1 c2 x = vO) ->
  forall x, affine_cross m1 m2 c1 c2 x = vO.
Proof.
  intros F1 F2 R0 H.
  assert (DL : forall c f x v t, vdot (vsub (vadd x (vscl t v)) c) f = vdot (vsub x c) f + t * vdot v f).
  { intros. replace (vsub (vadd x (vscl t v)) c) with (vadd (vsub x c) (vscl t v)) by vring.
    now rewrite vdot_vadd_l, vdot_vscl_l. }
  assert (S1 : forall v, vdot v f1 <> 0 -> vdot v f2 <> 0 -> affine_cross m1 m2 c1 c2 (vadd x0 v) = vO).
  { intros v V1 V2.
    assert (V0 : v <> vO) by (intros ->; apply V1; apply vdot_O_l).
    pose proof (vlen_pos v V0) as L.
    destruct (vquad_zero (affine_cross m1 m2 c1 c2 x0)
      (vadd (vcross (mv m1 (vsub x0 c1)) (mv m2 v)) (vcross (mv m1 v) (mv m2 (vsub x0 c2))))
      (vcross (mv m1 v) (mv m2 v)) (r / vlen v) (- vdot (vsub x0 c1) f1 / vdot v f1) (- vdot (vsub x0 c2) f2 / vdot v f2))
      as (E1 & E2 & E3).
    - unfold Rdiv. apply Rmult_lt_0_compat; [exact R0|now apply Rinv_0_lt_compat].
    - intros t (T0 & T1) N1 N2. rewrite <- affine_cross_line. apply H.
      + unfold vdist. replace (vsub (vadd x0 (vscl t v)) x0) with (vscl t v) by vring.
        rewrite vlen_vscl, Rabs_pos_eq by lra.
        apply (Rmult_lt_compat_r (vlen v)) in T1; [|exact L]. unfold Rdiv in T1. rewrite Rmult_assoc, Rinv_l, Rmult_1_r in T1; lra.
      + rewrite DL. now apply affine_nonzero.
      + rewrite DL. now apply affine_nonzero.
    - replace (vadd x0 v) with (vadd x0 (vscl 1 v)) by vring. rewrite affine_cross_line, E1, E2, E3. vring. }
  intros x. destruct (good_vector f1 f2 F1 F2) as (w & W1 & W2).
  assert (E : forall v, vsub (vadd x (vscl v w)) x0 = vadd (vsub x x0) (vscl v w)) by (intros; vring).
  destruct (vquad_zero (affine_cross m1 m2 c1 c2 x)
      (vadd (vcross (mv m1 (vsub x c1)) (mv m2 w)) (vcross (mv m1 w) (mv m2 (vsub x c2))))
      (vcross (mv m1 w) (mv m2 w)) 1 (- vdot (vsub x x0) f1 / vdot w f1) (- vdot (vsub x x0) f2 / vdot w f2)) as (E1 & _).
  - lra.
  - intros t _ N1 N2. rewrite <- affine_cross_line.
    replace (vadd x (vscl t w)) with (vadd x0 (vsub (vadd x (vscl t w)) x0)) by vring.
    apply S1; rewrite DL; now apply affine_nonzero.
  - exact E1.
Qed.

Lemma same_pixel_cross k1 k2 y1 y2 : vz y1 <> 0 -> vz y2 <> 0 -> persp_pixel k1 y1 = persp_pixel k2 y2 ->
  vcross (mv (kp k1) y1) (mv (kp k2) y2) = vO.
Proof.
  intros Z1 Z2 E. pose proof (homog_pixel k1 y1 Z1) as A. rewrite E, (homog_pixel k2 y2 Z2) in A.
  assert (B : mv (kp k1) y1 = vscl (vz y1 / vz y2) (mv (kp k2) y2)).
  { unfold Rdiv. rewrite <- vscl_vscl, A, vscl_vscl, Rinv_r, vscl_1 by exact Z1. reflexivity. }
  rewrite B, vcross_vscl_l, vcross_self. apply vscl_O.
Qed.

Lemma pixels1 (p p' : V2 R) : Some (mkPixels [p]) = Some (mkPixels [p']) -> p = p'.
Proof. intros H. now injection H. Qed.

Lemma C82_lemma k1 q1 c1 k2 q2 c2 x0 r : unit_quat q1 -> unit_quat q2 ->
  0 < pp_fx k1 -> 0 < pp_fy k1 -> 0 < pp_fx k2 -> 0 < pp_fy k2 -> 0 < r ->
  (forall x, vdist x x0 < r -> depth q1 c1 x <> 0 -> depth q2 c2 x <> 0 ->
     world_to_pixel (camera_new (perspective_from k1) (frc q1 c1)) (mkPoints [x])
     = world_to_pixel (camera_new (perspective_from k2) (frc q2 c2)) (mkPoints [x])) ->
  k1 = k2 /\ c1 = c2 /\ rotm q1 = rotm q2.
Proof.
  intros U1 U2 A1 B1 A2 B2 R0 H.
  set (m1 := mm (kp k1) (rotm q1)). set (m2 := mm (kp k2) (rotm q2)).
  assert (D1 : mdet m1 <> 0) by (apply kr_det_nz; auto; lra).
  assert (D2 : mdet m2 <> 0) by (apply kr_det_nz; auto; lra).
  assert (F : forall q c, unit_quat q -> vdot (forward (frc q c)) (forward (frc q c)) = 1).
  { intros q c U. rewrite forward_R by exact U. rewrite orthogonal_dot; [ru_spec; ring|].
    apply orthogonal_mtr. now apply rotm_orthogonal. }
  assert (G : forall x, affine_cross m1 m2 c1 c2 x = vO).
  { apply (affine_cross_everywhere _ _ _ _ (forward (frc q1 c1)) (forward (frc q2 c2)) x0 r); auto.
    intros x X Z1 Z2. rewrite <- depth_forward in Z1, Z2 by assumption.
    specialize (H x X Z1 Z2). unfold affine_cross, m1, m2.
    rewrite !world_to_pixel_persp in H; [|assumption|now constructor|assumption|now constructor].
    apply pixels1 in H. rewrite !mv_mm. apply (same_pixel_cross k1 k2); auto. }
  assert (Q : forall v, vcross (mv m1 v) (mv m2 v) = vO /\ vcross (mv m1 v) (mv m2 (vsub c1 c2)) = vO).
  { intros v. destruct (vquad_zero (affine_cross m1 m2 c1 c2 c1)
      (vadd (vcross (mv m1 (vsub c1 c1)) (mv m2 v)) (vcross (mv m1 v) (mv m2 (vsub c1 c2))))
      (vcross (mv m1 v) (mv m2 v)) 1 0 0) as (_ & E2 & E3).
    - lra.
    - intros t _ _ _. rewrite <- affine_cross_line. apply G.
    - split; [exact E3|]. rewrite <- E2, vsub_diag, mv_O. generalize (mv m1 v) (mv m2 v) (mv m2 (vsub c1 c2)). intros. vring. }
  assert (C : c1 = c2).
  { assert (E : vsub c1 c2 = vO).
    { apply (zero_matrix_vec m2 _ D2). apply (cross_all m1 _ D1). intros v. apply Q. }
    rewrite <- (vadd_vsub c1 c2), E. apply vadd_0_l. }
  destruct (proportional m1 m2 D2) as (s & E). { intros v. apply Q. }
  unfold m1, m2 in E. apply rq_unique in E; auto using rotm_rotation. destruct E as (-> & -> & _). auto.
Qed.

(** ** Orthographic cameras *)
Lemma row_x q v : vx (mv (rotm q) v) = vdot v (mv (mtr (rotm q)) (mkV3 1 0 0)).
Proof. generalize (rotm q). intros m. destruct m, v; ru_spec; ring. Qed.
Lemma row_y q v : vy (mv (rotm q) v) = vdot v (mv (mtr (rotm q)) (mkV3 0 1 0)).
Proof. generalize (rotm q). intros m. destruct m, v; ru_spec; ring. Qed.
Lemma vdot_ext a b x0 r d : 0 < r -> (forall x, vdist x x0 < r -> vdot x a = vdot x b + d) -> a = b.
Proof.
  intros R0 H.
  assert (G : forall v, vdot v (vsub a b) = 0).
  { intros v. destruct (Req_dec (vdot v v) 0) as [Z|N].
    - apply vdot_self_0 in Z. subst. apply vdot_O_l.
    - assert (V0 : v <> vO) by (intros ->; apply N; apply vdot_O_l). pose proof (vlen_pos v V0) as L.
      set (t := r / (2 * vlen v)). assert (T : 0 < t) by (unfold t, Rdiv; apply Rmult_lt_0_compat; [lra|apply Rinv_0_lt_compat; lra]).
      pose proof (H x0) as H0. pose proof (H (vadd x0 (vscl t v))) as H1.
      unfold vdist in H0, H1. rewrite vsub_diag, vlen_O in H0. specialize (H0 R0).
      replace (vsub (vadd x0 (vscl t v)) x0) with (vscl t v) in H1 by vring.
      rewrite vlen_vscl, Rabs_pos_eq in H1 by lra.
      assert (t * vlen v = r / 2) by (unfold t; field; lra).
      specialize (H1 ltac:(lra)). rewrite !vdot_vadd_l, !vdot_vscl_l in H1.
      rewrite vdot_vsub_r. apply (Rmult_eq_reg_l t); lra. }
  specialize (G (vsub a b)). apply vdot_self_0 in G. rewrite <- (vadd_vsub a b), G. apply vadd_0_l.
Qed.
Lemma scaled_units s1 s2 a b : 0 < s1 -> 0 < s2 -> vdot a a = 1 -> vdot b b = 1 -> vscl s1 a = vscl s2 b -> s1 = s2 /\ a = b.
Proof.
  intros S1 S2 A B E. assert (Q : s1 * s1 = s2 * s2).
  { pose proof (f_equal (fun v => vdot v v) E) as F. cbv beta in F. rewrite !vdot_vscl_l, !vdot_vscl_r, A, B in F. lra. }
  assert (s1 = s2) by now apply sq_eq_pos. subst. split; [reflexivity|].
  rewrite <- (vscl_1 a), <- (Rinv_l s2), <- vscl_vscl, E, vscl_vscl, Rinv_l, vscl_1 by lra. reflexivity.
Qed.
Lemma rotation_two_rows m n : is_rotation m -> is_rotation n ->
  mv (mtr m) (mkV3 1 0 0) = mv (mtr n) (mkV3 1 0 0) -> mv (mtr m) (mkV3 0 1 0) = mv (mtr n) (mkV3 0 1 0) -> m = n.
Proof.
  intros M N E1 E2.
  assert (E3 : mv (mtr m) (mkV3 0 0 1) = mv (mtr n) (mkV3 0 0 1)).
  { assert (X : mkV3 0 0 1 = vcross (mkV3 1 0 0) (mkV3 0 1 0)) by (apply V3_eq; ru_spec; ring).
    rewrite X, <- !rotation_cross, E1, E2 by now apply is_rotation_mtr. reflexivity. }
  destruct m, n. apply V3_inv in E1. apply V3_inv in E2. apply V3_inv in E3. ru_spec. apply M33_eq; cbn; lra.
Qed.
Lemma V2_ext (a b : V2 R) : px a = px b -> py a = py b -> a = b.
Proof. destruct a, b; cbn; intros; subst; reflexivity. Qed.

Lemma C82b_lemma k1 q1 c1 k2 q2 c2 x0 r : unit_quat q1 -> unit_quat q2 ->
  0 < op_sx k1 -> 0 < op_sy k1 -> 0 < op_sx k2 -> 0 < op_sy k2 -> 0 < r ->
  (forall x, vdist x x0 < r ->
     world_to_pixel (camera_new (orthographic_from k1) (frc q1 c1)) (mkPoints [x])
     = world_to_pixel (camera_new (orthographic_from k2) (frc q2 c2)) (mkPoints [x])) <->
  op_sx k1 = op_sx k2 /\ op_sy k1 = op_sy k2 /\ rotm q1 = rotm q2 /\
  op_cx k1 - op_cx k2 = op_sx k1 * vx (mv (rotm q1) (vsub c1 c2)) /\
  op_cy k1 - op_cy k2 = op_sy k1 * vy (mv (rotm q1) (vsub c1 c2)).
Proof.
  intros U1 U2 A1 B1 A2 B2 R0.
  assert (P : forall k q c x, ortho_pixel k (to_camera q c x) =
    mkV2 (op_sx k * vx (mv (rotm q) x) + (op_cx k - op_sx k * vx (mv (rotm q) c)))
         (op_sy k * vy (mv (rotm q) x) + (op_cy k - op_sy k * vy (mv (rotm q) c)))).
  { intros. unfold ortho_pixel, to_camera. rewrite mv_vsub. unfold vsub. cbn [vx vy vz]. f_equal; ring. }
  assert (Len : forall q v, unit_quat q -> vdot v v = 1 -> vdot (mv (mtr (rotm q)) v) (mv (mtr (rotm q)) v) = 1).
  { intros q v U V. rewrite orthogonal_dot; [exact V|]. apply orthogonal_mtr. now apply rotm_orthogonal. }
  split.
  - intros H.
    assert (G : forall x, vdist x x0 < r ->
      op_sx k1 * vx (mv (rotm q1) x) + (op_cx k1 - op_sx k1 * vx (mv (rotm q1) c1))
      = op_sx k2 * vx (mv (rotm q2) x) + (op_cx k2 - op_sx k2 * vx (mv (rotm q2) c2)) /\
      op_sy k1 * vy (mv (rotm q1) x) + (op_cy k1 - op_sy k1 * vy (mv (rotm q1) c1))
      = op_sy k2 * vy (mv (rotm q2) x) + (op_cy k2 - op_sy k2 * vy (mv (rotm q2) c2))).
    { intros x X. specialize (H x X). rewrite !world_to_pixel_ortho in H by assumption. apply pixels1 in H. rewrite !P in H.
      split; [exact (f_equal px H)|exact (f_equal py H)]. }
    assert (X1 : vscl (op_sx k1) (mv (mtr (rotm q1)) (mkV3 1 0 0)) = vscl (op_sx k2) (mv (mtr (rotm q2)) (mkV3 1 0 0))).
    { apply (vdot_ext _ _ x0 r ((op_cx k2 - op_sx k2 * vx (mv (rotm q2) c2)) - (op_cx k1 - op_sx k1 * vx (mv (rotm q1) c1))) R0).
      intros x X. rewrite !vdot_vscl_r, <- !row_x. destruct (G x X). lra. }
    assert (X2 : vscl (op_sy k1) (mv (mtr (rotm q1)) (mkV3 0 1 0)) = vscl (op_sy k2) (mv (mtr (rotm q2)) (mkV3 0 1 0))).
    { apply (vdot_ext _ _ x0 r ((op_cy k2 - op_sy k2 * vy (mv (rotm q2) c2)) - (op_cy k1 - op_sy k1 * vy (mv (rotm q1) c1))) R0).
      intros x X. rewrite !vdot_vscl_r, <- !row_y. destruct (G x X). lra. }
    apply scaled_units in X1; auto; [|apply Len; auto; ru_spec; ring|apply Len; auto; ru_spec; ring].
    apply scaled_units in X2; auto; [|apply Len; auto; ru_spec; ring|apply Len; auto; ru_spec; ring].
    destruct X1 as (S1 & E1), X2 as (S2 & E2).
    assert (E : rotm q1 = rotm q2) by (apply rotation_two_rows; auto using rotm_rotation).
    destruct (G x0) as (G1 & G2). { unfold vdist. now rewrite vsub_diag, vlen_O. }
    rewrite <- E, <- S1 in G1. rewrite <- E, <- S2 in G2.
    repeat split; auto; rewrite mv_vsub; unfold vsub; cbn [vx vy]; lra.
  - intros (S1 & S2 & E & X & Y) x _. rewrite !world_to_pixel_ortho by assumption. cbn [map]. rewrite !P.
    rewrite <- E, <- S1, <- S2. rewrite mv_vsub in X, Y. unfold vsub in X, Y. cbn [vx vy] in X, Y.
    do 3 f_equal. apply V2_ext; cbn [px py]; lra.
Qed.

(** ** C83: two matrices give the same camera exactly when they are proportional *)
Lemma camera_inj k q c k' q' c' :
  camera_new (perspective_from k) (frc q c) = camera_new (perspective_from k') (frc q' c') -> k = k' /\ q = q' /\ c = c'.
Proof.
  intros H. pose proof (f_equal cam_intrinsics H) as A. pose proof (f_equal cam_extrinsics H) as B.
  cbn [camera_new cam_intrinsics cam_extrinsics] in A, B.
  destruct (frc_accessors q c) as (C1 & _ & Q1). destruct (frc_accessors q' c') as (C2 & _ & Q2).
  split; [|split].
  - destruct k, k'. unfold perspective_from in A. injection A as -> -> -> -> ->. reflexivity.
  - now rewrite <- Q1, <- Q2, B.
  - now rewrite <- C1, <- C2, B.
Qed.
Lemma ok_inj {A} (a b : A) : Some (Ok a) = Some (Ok b) -> a = b.
Proof. intros H. now injection H. Qed.
Lemma C83_lemma p p' : mdet (left33 p) <> 0 -> mdet (left33 p') <> 0 ->
  (exists k q q' c,
     from_perspective_matrix p = Some (Ok (camera_new (perspective_from k) (frc q c))) /\
     from_perspective_matrix p' = Some (Ok (camera_new (perspective_from k) (frc q' c))) /\ rotm q' = rotm q) <->
  (exists s, s <> 0 /\ p' = hstack (mscl s (left33 p)) (vscl s (col4 p))).
Proof.
  intros D D'. split.
  - intros (k & q & q' & c & E & E' & RR).
    destruct (from_perspective_spec p D) as (k0 & q0 & s & F & _ & _ & _ & S & L).
    destruct (from_perspective_spec p' D') as (k1 & q1 & s' & F' & _ & _ & _ & S' & L').
    rewrite F in E. apply ok_inj in E. apply camera_inj in E. destruct E as (-> & -> & C).
    rewrite F' in E'. apply ok_inj in E'. apply camera_inj in E'. destruct E' as (-> & -> & C').
    pose proof (center_R p D) as Z. pose proof (center_R p' D') as Z'. rewrite C in Z. rewrite C' in Z'.
    exists (s' / s). split. { unfold Rdiv. apply Rmult_integral_contrapositive_currified; auto using Rinv_neq_0_compat. }
    assert (LL : left33 p' = mscl (s' / s) (left33 p)).
    { rewrite L, L', mscl_mscl, RR. f_equal. field. exact S. }
    assert (CC : col4 p' = vscl (s' / s) (col4 p)).
    { assert (HA : forall m x, happly m x = vO -> col4 m = vopp (mv (left33 m) x)).
      { intros m x H. apply V3_inv in H. destruct m, x. apply V3_eq; ru_spec; lra. }
      rewrite (HA p' c Z'), (HA p c Z), LL, mv_mscl. generalize (mv (left33 p) c). intros. vring. }
    rewrite <- LL, <- CC. destruct p'; reflexivity.
  - intros (s & S & ->). destruct (C60_lemma p s D S) as (k & q & q' & c & E & E' & _ & _ & RR).
    exists k, q, q', c. auto.
Qed.
