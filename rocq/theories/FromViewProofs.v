(** * FromViewProofs.v - rotation matrices to quaternions, from_view (C10, C11) *)

From Coq Require Import Reals List Lra Psatz.
From Verif Require Import Scalar Linalg Bundles Extrinsics Spec Rows RealBase VecLemmas ExtrinsicsProofs PiProofs.
Import ListNotations.
Local Open Scope R_scope.

Lemma Rltb_true a b : Rltb a b = true <-> a < b.
Proof. unfold Rltb; destruct (Rlt_dec a b); split; intros; auto; try discriminate; lra. Qed.
Lemma Rltb_false a b : Rltb a b = false <-> b <= a.
Proof. unfold Rltb; destruct (Rlt_dec a b); split; intros; auto; try discriminate; lra. Qed.
Lemma Rleb_true a b : Rleb a b = true <-> a <= b.
Proof. unfold Rleb; destruct (Rle_dec a b); split; intros; auto; try discriminate; lra. Qed.
Lemma Rleb_false a b : Rleb a b = false <-> b < a.
Proof. unfold Rleb; destruct (Rle_dec a b); split; intros; auto; try discriminate; lra. Qed.
Lemma Reqb_true a b : Reqb a b = true <-> a = b.
Proof. unfold Reqb; destruct (Req_EM_T a b); split; intros; auto; try discriminate; lra. Qed.
Lemma Reqb_false a b : Reqb a b = false <-> a <> b.
Proof. unfold Reqb; destruct (Req_EM_T a b); split; intros; auto; try discriminate; contradiction. Qed.

(** The adjugate of a rotation is its transpose. *)
Lemma rotation_cofactors m : is_rotation m ->
  vcross (mcol0 m) (mcol1 m) = mcol2 m /\
  vcross (mcol1 m) (mcol2 m) = mcol0 m /\
  vcross (mcol2 m) (mcol0 m) = mcol1 m.
Proof.
  intros H.
  assert (E0 : mcol0 m = mv m (mkV3 1 0 0)) by vring.
  assert (E1 : mcol1 m = mv m (mkV3 0 1 0)) by vring.
  assert (E2 : mcol2 m = mv m (mkV3 0 0 1)) by vring.
  rewrite E0, E1, E2, !rotation_cross by assumption.
  repeat split; f_equal; vring.
Qed.

Record rot_ids (m : M33 R) : Prop := {
  ri_r00 : m00 m * m00 m + m01 m * m01 m + m02 m * m02 m = 1;
  ri_r11 : m10 m * m10 m + m11 m * m11 m + m12 m * m12 m = 1;
  ri_r22 : m20 m * m20 m + m21 m * m21 m + m22 m * m22 m = 1;
  ri_r01 : m00 m * m10 m + m01 m * m11 m + m02 m * m12 m = 0;
  ri_r02 : m00 m * m20 m + m01 m * m21 m + m02 m * m22 m = 0;
  ri_r12 : m10 m * m20 m + m11 m * m21 m + m12 m * m22 m = 0;
  ri_c00 : m00 m * m00 m + m10 m * m10 m + m20 m * m20 m = 1;
  ri_c11 : m01 m * m01 m + m11 m * m11 m + m21 m * m21 m = 1;
  ri_c22 : m02 m * m02 m + m12 m * m12 m + m22 m * m22 m = 1;
  ri_c01 : m00 m * m01 m + m10 m * m11 m + m20 m * m21 m = 0;
  ri_c02 : m00 m * m02 m + m10 m * m12 m + m20 m * m22 m = 0;
  ri_c12 : m01 m * m02 m + m11 m * m12 m + m21 m * m22 m = 0;
  ri_x00 : m00 m = m11 m * m22 m - m21 m * m12 m;
  ri_x10 : m10 m = m21 m * m02 m - m01 m * m22 m;
  ri_x20 : m20 m = m01 m * m12 m - m11 m * m02 m;
  ri_x01 : m01 m = m12 m * m20 m - m22 m * m10 m;
  ri_x11 : m11 m = m22 m * m00 m - m02 m * m20 m;
  ri_x21 : m21 m = m02 m * m10 m - m12 m * m00 m;
  ri_x02 : m02 m = m10 m * m21 m - m20 m * m11 m;
  ri_x12 : m12 m = m20 m * m01 m - m00 m * m21 m;
  ri_x22 : m22 m = m00 m * m11 m - m10 m * m01 m }.

Lemma rotation_ids m : is_rotation m -> rot_ids m.
Proof.
  intros H. destruct (rotation_cofactors m H) as (A & B & C).
  destruct H as [[H1 H2] D]. apply M33_inv in H1. apply M33_inv in H2.
  destruct m as [a b c d e f g h i]. unfold mcol0, mcol1, mcol2, vcross in A, B, C; simpl in A, B, C.
  apply V3_inv in A. apply V3_inv in B. apply V3_inv in C.
  ru_spec. constructor; simpl; lra.
Qed.

(** A quaternion whose products are the ones below represents [m]. *)
Lemma products_rotm (m : M33 R) (q : Quat R) :
  4 * (qi q * qi q) = 1 + m00 m - m11 m - m22 m ->
  4 * (qj q * qj q) = 1 - m00 m + m11 m - m22 m ->
  4 * (qk q * qk q) = 1 - m00 m - m11 m + m22 m ->
  4 * (qw q * qw q) = 1 + m00 m + m11 m + m22 m ->
  4 * (qi q * qj q) = m01 m + m10 m ->
  4 * (qi q * qk q) = m02 m + m20 m ->
  4 * (qj q * qk q) = m12 m + m21 m ->
  4 * (qi q * qw q) = m21 m - m12 m ->
  4 * (qj q * qw q) = m02 m - m20 m ->
  4 * (qk q * qw q) = m10 m - m01 m ->
  unit_quat q /\ rotm q = m.
Proof.
  destruct q as [x y z w], m; simpl; intros. split.
  - unfold unit_quat, qnorm2; simpl; lra.
  - apply M33_eq; ru_spec; lra.
Qed.

(** Products of [pivot = sqrt D / 2] and [L / (2 sqrt D)]. *)
Lemma pivot_pp D : 0 < D -> 4 * ((/ 4 * (sqrt D * 2)) * (/ 4 * (sqrt D * 2))) = D.
Proof. intros H. pose proof (sqrt_sqrt D (Rlt_le _ _ H)). nra. Qed.
Lemma pivot_pl D L : 0 < D -> 4 * ((/ 4 * (sqrt D * 2)) * (L / (sqrt D * 2))) = L.
Proof. intros H. pose proof (sqrt_lt_R0 D H). field. lra. Qed.
Lemma pivot_lp D L : 0 < D -> 4 * ((L / (sqrt D * 2)) * (/ 4 * (sqrt D * 2))) = L.
Proof. intros H. pose proof (sqrt_lt_R0 D H). field. lra. Qed.
Lemma pivot_ll D L M N : 0 < D -> L * M = D * N ->
  4 * ((L / (sqrt D * 2)) * (M / (sqrt D * 2))) = N.
Proof.
  intros H E. pose proof (sqrt_lt_R0 D H). pose proof (sqrt_sqrt D (Rlt_le _ _ H)) as S.
  replace (4 * (L / (sqrt D * 2) * (M / (sqrt D * 2)))) with ((L * M) / (sqrt D * sqrt D)) by (field; lra).
  rewrite S, E. field. lra.
Qed.

Lemma from_rotation_matrix_R m : is_rotation m ->
  unit_quat (q_from_rotation_matrix m) /\ rotm (q_from_rotation_matrix m) = m.
Proof.
  intros H. apply rotation_ids in H. destruct H. destruct m as [a b c d e f g h i]. simpl in *.
  unfold q_from_rotation_matrix; cbn [m00 m01 m02 m10 m11 m12 m20 m21 m22].
  rewrite o_two_R, o_quarter_R.
  cbv beta iota zeta delta [o_add o_sub o_mul o_div o_sqrt o_zero o_one o_ltb R_ops].
  destruct (Rltb 0 (a + e + i)) eqn:B1;
    [apply Rltb_true in B1|apply Rltb_false in B1; destruct (Rltb e a && Rltb i a)%bool eqn:B2;
      [apply andb_prop in B2; destruct B2 as [B2 B2']; apply Rltb_true in B2; apply Rltb_true in B2'
      |destruct (Rltb i e) eqn:B3; [apply Rltb_true in B3|apply Rltb_false in B3];
       apply Bool.andb_false_iff in B2; rewrite !Rltb_false in B2]].
  - assert (D : 0 < a + e + i + 1) by lra.
    apply products_rotm; cbn [qi qj qk qw m00 m01 m02 m10 m11 m12 m20 m21 m22];
    first [rewrite (pivot_pp _ D); lra | rewrite (pivot_pl _ _ D); lra | rewrite (pivot_lp _ _ D); lra
          | apply (pivot_ll _ _ _ _ D); lra].
  - assert (D : 0 < 1 + a - e - i) by lra.
    apply products_rotm; cbn [qi qj qk qw m00 m01 m02 m10 m11 m12 m20 m21 m22];
    first [rewrite (pivot_pp _ D); lra | rewrite (pivot_pl _ _ D); lra | rewrite (pivot_lp _ _ D); lra
          | apply (pivot_ll _ _ _ _ D); lra].
  - assert (D : 0 < 1 + e - a - i) by (destruct B2; lra).
    apply products_rotm; cbn [qi qj qk qw m00 m01 m02 m10 m11 m12 m20 m21 m22];
    first [rewrite (pivot_pp _ D); lra | rewrite (pivot_pl _ _ D); lra | rewrite (pivot_lp _ _ D); lra
          | apply (pivot_ll _ _ _ _ D); lra].
  - assert (D : 0 < 1 + i - a - e) by (destruct B2; lra).
    apply products_rotm; cbn [qi qj qk qw m00 m01 m02 m10 m11 m12 m20 m21 m22];
    first [rewrite (pivot_pp _ D); lra | rewrite (pivot_pl _ _ D); lra | rewrite (pivot_lp _ _ D); lra
          | apply (pivot_ll _ _ _ _ D); lra].
Qed.

(** ** face_towards *)
Lemma vunit_cross_unit (z u : V3 R) : vdot z z = 1 -> vcross u z <> vO ->
  vdot (vcross z (vunit (vcross u z))) (vcross z (vunit (vcross u z))) = 1.
Proof.
  intros Hz Hc. rewrite lagrange, Hz, vunit_dot by assumption.
  unfold vunit. rewrite vdot_vscl_r, vdot_vcross_r. ring.
Qed.

Definition fx_axis (z u : V3 R) := vunit (vcross u z).
Definition fy_axis (z u : V3 R) := vcross z (fx_axis z u).

Lemma frame_dots (z u : V3 R) : vdot z z = 1 -> vcross u z <> vO ->
  let x := fx_axis z u in let y := fy_axis z u in
  vdot x x = 1 /\ vdot y y = 1 /\ vdot z z = 1 /\ vdot x y = 0 /\ vdot x z = 0 /\ vdot y z = 0 /\
  vcross x y = z.
Proof.
  intros Hz Hc x y. unfold x, y, fy_axis, fx_axis.
  assert (XX := vunit_dot _ Hc). assert (XZ : vdot (vunit (vcross u z)) z = 0).
  { unfold vunit. rewrite vdot_vscl_l, (vdot_comm _ z), vdot_vcross_r. ring. }
  repeat split; auto.
  - now apply vunit_cross_unit.
  - now rewrite vdot_vcross_r.
  - now rewrite vdot_comm, vdot_vcross_l.
  - rewrite vcross_vcross, XX, XZ. vring.
Qed.

Lemma face_towards_R z u : vdot z z = 1 -> vcross u z <> vO ->
  let m := rot_face_towards z u in
  is_rotation m /\ mcol0 m = fx_axis z u /\ mcol1 m = fy_axis z u /\ mcol2 m = z.
Proof.
  intros Hz Hc m.
  assert (C : mcol0 m = fx_axis z u /\ mcol1 m = fy_axis z u /\ mcol2 m = z).
  { unfold m, rot_face_towards. rewrite !v3_normalize_R. tospec. rewrite (vunit_id z Hz).
    fold (fx_axis z u). fold (fy_axis z u).
    rewrite (vunit_id (fy_axis z u)) by now apply vunit_cross_unit.
    unfold mcol0, mcol1, mcol2; cbn [m00 m01 m02 m10 m11 m12 m20 m21 m22].
    repeat split; apply V3_eq; reflexivity. }
  split; [|exact C]. destruct C as (C0 & C1 & C2).
  pose proof (frame_dots z u Hz Hc) as (XX & YY & ZZ & XY & XZ & YZ & XxY).
  assert (L : mm (mtr m) m = mI).
  { rewrite <- C0, <- C1, <- C2 in *. clearbody m. destruct m.
    apply M33_eq; ru_spec; lra. }
  assert (D : mdet m = 1).
  { unfold mdet. rewrite C0, C1, C2. unfold triple.
    transitivity (vdot (vcross (fx_axis z u) (fy_axis z u)) z); [vring|]. now rewrite XxY. }
  split; [now apply orthogonal_left|exact D].
Qed.

(** ** axis-angle *)
Lemma axis_angle_unit z t : vdot z z = 1 -> unit_quat (q_from_axis_angle z t).
Proof.
  intros H. destruct z as [a b c]. unfold unit_quat, q_from_axis_angle. rewrite o_two_R.
  ru. pose proof (sin2_cos2 (t / 2)) as S. unfold Rsqr in S.
  set (s := sin (t / 2)) in *. set (k := cos (t / 2)) in *. nra.
Qed.
(** Rodrigues' formula for the inverse rotation of a vector orthogonal to the axis. *)
Lemma axis_angle_inv z t v : vdot z z = 1 -> vdot z v = 0 ->
  mv (mtr (rotm (q_from_axis_angle z t))) v = vsub (vscl (cos t) v) (vscl (sin t) (vcross z v)).
Proof.
  intros H E. destruct z as [a b c], v as [x y w]. unfold q_from_axis_angle. rewrite o_two_R.
  replace (cos t) with (cos (2 * (t / 2))) by (f_equal; field).
  replace (sin t) with (sin (2 * (t / 2))) by (f_equal; field).
  rewrite cos_2a_sin, sin_2a.
  cbn [o_mul o_sin o_cos o_div R_ops] in *.
  set (s := sin (t / 2)) in *. set (k := cos (t / 2)) in *.
  ru_spec.
  assert (A : a * x = - (b * y + c * w)) by lra.
  f_equal.
  - transitivity (x - 2 * (s * s) * x * (b*b + c*c) + 2 * s * s * a * (b * y + c * w) - 2 * s * k * (b * w - c * y)); [ring|].
    replace (b * y + c * w) with (- (a * x)) by lra. replace (b * b + c * c) with (1 - a * a) by lra. ring.
  - transitivity (y - 2 * (s * s) * y * (a*a + c*c) + 2 * s * s * b * (a * x + c * w) - 2 * s * k * (c * x - a * w)); [ring|].
    replace (a * x + c * w) with (- (b * y)) by lra. replace (a * a + c * c) with (1 - b * b) by lra. ring.
  - transitivity (w - 2 * (s * s) * w * (a*a + b*b) + 2 * s * s * c * (a * x + b * y) - 2 * s * k * (a * y - b * x)); [ring|].
    replace (a * x + b * y) with (- (c * w)) by lra. replace (a * a + b * b) with (1 - c * c) by lra. ring.
Qed.
Lemma axis_angle_fix z t : vdot z z = 1 -> mv (mtr (rotm (q_from_axis_angle z t))) z = z.
Proof.
  intros H. destruct z as [a b c]. unfold q_from_axis_angle. rewrite o_two_R.
  cbn [o_mul o_sin o_cos o_div R_ops] in *. ru_spec. f_equal; ring.
Qed.

(** ** from_view *)
Lemma rotm_mul a b : unit_quat a -> unit_quat b -> rotm (q_mul a b) = mm (rotm a) (rotm b).
Proof.
  intros A B.
  assert (E : forall v, mv (rotm (q_mul a b)) v = mv (mm (rotm a) (rotm b)) v).
  { intros v. rewrite mv_mm, <- !q_rotate_R. now apply q_rotate_mul. }
  pose proof (E (mkV3 1 0 0)) as E0. pose proof (E (mkV3 0 1 0)) as E1. pose proof (E (mkV3 0 0 1)) as E2.
  destruct (rotm (q_mul a b)), (mm (rotm a) (rotm b)). unfold mv in *; cbn in *.
  apply V3_inv in E0. apply V3_inv in E1. apply V3_inv in E2.
  apply M33_eq; cbn; lra.
Qed.

Definition view_dir (c l : V3 R) := vunit (vsub l c).

Lemma from_view_R t c l u : l <> c -> vcross u (vsub l c) <> vO ->
  let z := view_dir c l in
  exists q, from_view_with_roll t c l u = from_rotation_and_camcenter q c /\ unit_quat q /\
    mv (mtr (rotm q)) (mkV3 0 0 1) = z /\
    mv (mtr (rotm q)) (mkV3 1 0 0) = vsub (vscl (cos t) (fx_axis z u)) (vscl (sin t) (fy_axis z u)) /\
    mv (mtr (rotm q)) (mkV3 0 (-1) 0) = vsub (vscl (- cos t) (fy_axis z u)) (vscl (sin t) (fx_axis z u)).
Proof.
  intros Hlc Hc z.
  assert (Hd : vsub l c <> vO).
  { intros E. apply Hlc. rewrite <- (vadd_vsub l c), E. apply vadd_0_l. }
  assert (Hz : vdot z z = 1) by now apply vunit_dot.
  assert (Hc' : vcross u z <> vO).
  { unfold z, view_dir, vunit. rewrite vcross_vscl_r. intros E. apply Hc.
    rewrite <- (vscl_1 (vcross u (vsub l c))).
    replace 1 with (vlen (vsub l c) * / vlen (vsub l c)) by (apply Rinv_r; pose proof (vlen_pos _ Hd); lra).
    now rewrite <- vscl_vscl, E, vscl_O. }
  destruct (face_towards_R z u Hz Hc') as (Rm & C0 & C1 & C2).
  destruct (from_rotation_matrix_R _ Rm) as (U1 & E1).
  assert (U2 := axis_angle_unit z t Hz).
  exists (q_mul (q_look_at_lh z u) (q_from_axis_angle z t)).
  split; [|split].
  - unfold from_view_with_roll. rewrite v3_normalize_R. tospec. reflexivity.
  - apply unit_quat_mul; [|assumption]. now apply unit_quat_inverse.
  - rewrite rotm_mul by (try apply unit_quat_inverse; assumption).
    rewrite mtr_mm. unfold q_look_at_lh. rewrite rotm_inverse, mtr_mtr, E1.
    set (m := rot_face_towards z u) in *.
    replace (mv (mm (mtr (rotm (q_from_axis_angle z t))) m) (mkV3 0 0 1))
      with (mv (mtr (rotm (q_from_axis_angle z t))) (mcol2 m))
      by (rewrite mv_mm; f_equal; vring).
    replace (mv (mm (mtr (rotm (q_from_axis_angle z t))) m) (mkV3 1 0 0))
      with (mv (mtr (rotm (q_from_axis_angle z t))) (mcol0 m))
      by (rewrite mv_mm; f_equal; vring).
    replace (mv (mm (mtr (rotm (q_from_axis_angle z t))) m) (mkV3 0 (-1) 0))
      with (vopp (mv (mtr (rotm (q_from_axis_angle z t))) (mcol1 m)))
      by (rewrite mv_mm, <- mv_vopp; f_equal; vring).
    rewrite C0, C1, C2.
    pose proof (frame_dots z u Hz Hc') as (XX & YY & _ & XY & XZ & YZ & XxY).
    split; [now apply axis_angle_fix|]. split.
    + rewrite axis_angle_inv; auto. now rewrite vdot_comm.
    + rewrite axis_angle_inv; auto; [|now rewrite vdot_comm].
      assert (ZY : vcross z (fy_axis z u) = vopp (fx_axis z u)).
      { unfold fy_axis. rewrite vcross_vcross, Hz, (vdot_comm z), XZ. vring. }
      rewrite ZY. vring.
Qed.

Lemma view_dir_perp c l u : vcross u (vsub l c) <> vO -> vcross u (view_dir c l) <> vO.
Proof.
  intros Hc E. apply Hc.
  assert (Hd := vcross_nonzero_r _ _ Hc).
  rewrite <- (vunit_scale _ Hd), vcross_vscl_r. unfold view_dir in E. rewrite E. apply vscl_O.
Qed.

Lemma C10_lemma roll c l u : l <> c -> vcross u (vsub l c) <> vO ->
  camcenter (from_view_with_roll roll c l u) = c /\
  forward (from_view_with_roll roll c l u) = vunit (vsub l c) /\
  world_to_camera (from_view_with_roll roll c l u) (mkPoints [l])
  = Some (mkPoints [mkV3 0 0 (vlen (vsub l c))]) /\
  from_view c l u = from_view_with_roll o_pi64 c l u.
Proof.
  intros Hlc Hc. destruct (from_view_R roll c l u Hlc Hc) as (q & E & U & Z & _).
  split; [reflexivity|]. rewrite E. split; [|split; [|reflexivity]].
  - now rewrite forward_R.
  - rewrite world_to_camera_R by assumption. cbn [map]. do 3 f_equal.
    unfold to_camera.
    assert (Hd := vcross_nonzero_r _ _ Hc).
    rewrite <- (vunit_scale _ Hd) at 1. unfold view_dir in Z. rewrite <- Z, <- mv_vscl.
    rewrite orthogonal_inv_r by now apply rotm_orthogonal. vring.
Qed.

(** ** The f64 constant pi *)
Definition ideal_right (c l u : V3 R) := vunit (vcross (vsub l c) u).
(** The part of the requested up vector orthogonal to the view direction. *)
Definition up_perp (c l u : V3 R) :=
  vsub u (vscl (vdot u (vunit (vsub l c))) (vunit (vsub l c))).

Lemma fx_axis_ideal c l u : vcross u (vsub l c) <> vO ->
  fx_axis (view_dir c l) u = vopp (ideal_right c l u).
Proof.
  intros Hc. assert (Hd := vcross_nonzero_r _ _ Hc).
  unfold fx_axis, ideal_right, view_dir. unfold vunit at 2.
  rewrite vcross_vscl_r, vunit_vscl by (apply Rinv_0_lt_compat, vlen_pos, Hd).
  unfold vunit. replace (vlen (vcross (vsub l c) u)) with (vlen (vcross u (vsub l c))).
  - vring.
  - unfold vlen. f_equal. vring.
Qed.
Lemma fy_axis_ideal c l u : vcross u (vsub l c) <> vO ->
  fy_axis (view_dir c l) u = vunit (up_perp c l u).
Proof.
  intros Hc. assert (Hd := vcross_nonzero_r _ _ Hc).
  unfold fy_axis, fx_axis. set (z := view_dir c l).
  assert (Hz : vdot z z = 1) by now apply vunit_dot.
  assert (P : vcross z (vcross u z) = up_perp c l u).
  { rewrite vcross_vcross, Hz. unfold up_perp. fold (view_dir c l). fold z.
    rewrite (vdot_comm u z). vring. }
  unfold vunit at 1. rewrite vcross_vscl_r, P. unfold vunit. f_equal. f_equal.
  rewrite <- P. unfold vlen. f_equal. rewrite (lagrange z), Hz, vdot_vcross_r. ring.
Qed.

Lemma roll_close d a b : 0 <= d -> vdot a a = 1 -> vdot b b = 1 -> vdot a b = 0 ->
  vdist (vadd (vscl (cos d) a) (vscl (sin d) b)) a <= d /\
  vdist (vsub (vscl (cos d) a) (vscl (sin d) b)) a <= d.
Proof.
  intros Hd A B AB.
  assert (S : sin (d / 2) * sin (d / 2) <= (d / 2) * (d / 2)).
  { assert (H : Rabs (sin (d / 2)) <= d / 2).
    { destruct (Rle_lt_or_eq_dec 0 (d / 2)) as [P|P]; [lra| |].
      - apply Rabs_le. split; [|left; now apply sin_lt_x].
        pose proof (SIN_bound (d / 2)). destruct (Rle_lt_dec 1 (d / 2)); [lra|].
        assert (0 < sin (d / 2)) by (apply sin_gt_0; pose proof PI_RGT_0; pose proof PI2_1; lra). lra.
      - rewrite <- P, sin_0, Rabs_R0. lra. }
    rewrite <- (Rabs_pos_eq (d / 2)) in H at 2 by lra.
    apply Rsqr_le_abs_1 in H. exact H. }
  assert (C : cos d = 1 - 2 * sin (d / 2) * sin (d / 2)).
  { replace d with (2 * (d / 2)) at 1 by field. apply cos_2a_sin. }
  pose proof (sin2_cos2 d) as SC. unfold Rsqr in SC.
  assert (K : (cos d - 1) * (cos d - 1) + sin d * sin d <= d * d) by nra.
  split; unfold vdist, vlen; (apply Rle_trans with (sqrt (d * d)); [apply sqrt_le_1_alt|right; now apply sqrt_square]).
  - replace (vdot _ _) with ((cos d - 1) * (cos d - 1) * vdot a a + sin d * sin d * vdot b b
      + 2 * (cos d - 1) * sin d * vdot a b) by vring. rewrite A, B, AB. lra.
  - replace (vdot _ _) with ((cos d - 1) * (cos d - 1) * vdot a a + sin d * sin d * vdot b b
      - 2 * (cos d - 1) * sin d * vdot a b) by vring. rewrite A, B, AB. lra.
Qed.

Lemma C11_lemma (c l u : V3 R) : l <> c -> vcross u (vsub l c) <> vO ->
  let ideal_right := vunit (vcross (vsub l c) u) in
  let ideal_up := vunit (vsub u (vscl (vdot u (vunit (vsub l c))) (vunit (vsub l c)))) in
  (let e := from_view_with_roll PI c l u in
   right e = ideal_right /\ vdot (right e) u = 0 /\
   up e = ideal_up /\ 0 < vdot (up e) u /\ triple (up e) (vsub l c) u = 0) /\
  (let e := from_view c l u in
   let d := PI - o_pi64 in
   right e = vsub (vscl (cos d) ideal_right) (vscl (sin d) ideal_up) /\
   up e = vadd (vscl (cos d) ideal_up) (vscl (sin d) ideal_right) /\
   0 < d <= 13 / 100000000000000000 /\
   vdist (right e) ideal_right <= 13 / 100000000000000000 /\
   vdist (up e) ideal_up <= 13 / 100000000000000000).
Proof.
  intros Hlc Hc ir iu.
  assert (Hd := vcross_nonzero_r _ _ Hc).
  set (z := view_dir c l).
  assert (Hz : vdot z z = 1) by now apply vunit_dot.
  assert (Hc' : vcross u z <> vO) by now apply view_dir_perp.
  pose proof (frame_dots z u Hz Hc') as (XX & YY & _ & XY & XZ & YZ & XxY).
  assert (X : fx_axis z u = vopp ir) by now apply fx_axis_ideal.
  assert (Y : fy_axis z u = iu) by now apply fy_axis_ideal.
  rewrite X, Y in *.
  assert (RR : vdot ir ir = 1) by (rewrite <- XX; vring).
  assert (RU : vdot iu ir = 0) by (replace (vdot iu ir) with (- vdot (vopp ir) iu) by vring; rewrite XY; ring).
  assert (UR : vdot ir iu = 0) by now rewrite vdot_comm.
  split.
  - intros e. destruct (from_view_R PI c l u Hlc Hc) as (q & E & U & Z1 & X1 & Y1).
    unfold e. rewrite E, right_R, up_R by assumption. rewrite X1, Y1.
    rewrite cos_PI, sin_PI. fold z. rewrite X, Y.
    replace (vsub (vscl (-1) (vopp ir)) (vscl 0 iu)) with ir by vring.
    replace (vsub (vscl (- -1) iu) (vscl 0 (vopp ir))) with iu by vring.
    assert (IU : iu = vunit (up_perp c l u)) by reflexivity.
    assert (NZ : up_perp c l u <> vO).
    { intros E0. rewrite IU, E0 in YY. unfold vunit in YY. rewrite vscl_O, vdot_O_l in YY. lra. }
    assert (UU : vdot (up_perp c l u) u = vdot (up_perp c l u) (up_perp c l u)).
    { unfold up_perp. change (vunit (vsub l c)) with z.
      replace (vdot (vsub u (vscl (vdot u z) z)) (vsub u (vscl (vdot u z) z)))
        with (vdot u u - 2 * vdot u z * vdot u z + vdot u z * vdot u z * vdot z z) by vring.
      rewrite Hz. vring. }
    repeat split.
    + unfold ir, vunit. rewrite vdot_vscl_l, (vdot_comm _ u), vdot_vcross_r. ring.
    + rewrite IU. unfold vunit. rewrite vdot_vscl_l, UU.
      apply Rmult_lt_0_compat; [apply Rinv_0_lt_compat, vlen_pos, NZ|apply vdot_self_pos, NZ].
    + rewrite IU. unfold up_perp, vunit, triple. vring.
  - intros e d. destruct pi64_error as [P1 P2]. fold d in P1, P2.
    destruct (from_view_R o_pi64 c l u Hlc Hc) as (q & E & U & Z1 & X1 & Y1).
    assert (Er : right e = vsub (vscl (cos d) ir) (vscl (sin d) iu)).
    { unfold e, from_view. rewrite E, right_R by assumption. rewrite X1. fold z. rewrite X, Y.
      unfold d. rewrite cos_minus, sin_minus, cos_PI, sin_PI. vring. }
    assert (Eu : up e = vadd (vscl (cos d) iu) (vscl (sin d) ir)).
    { unfold e, from_view. rewrite E, up_R by assumption. rewrite Y1. fold z. rewrite X, Y.
      unfold d. rewrite cos_minus, sin_minus, cos_PI, sin_PI. vring. }
    split; [exact Er|]. split; [exact Eu|]. split; [split; assumption|].
    rewrite Er, Eu. split.
    + eapply Rle_trans; [apply roll_close; auto; lra|exact P2].
    + eapply Rle_trans; [apply roll_close; auto; lra|exact P2].
Qed.
