(** * RealBase.v - bridging lemmas between the model at [R] and Spec.v *)

From Coq Require Import Reals List Lra Psatz Field.
From Verif Require Import Scalar Linalg Bundles Extrinsics Perspective Orthographic Camera Linearize Spec Rows.
Import ListNotations.
Local Open Scope R_scope.

#[global] Arguments v3_add : simpl never.
#[global] Arguments v3_sub : simpl never.
#[global] Arguments v3_neg : simpl never.
#[global] Arguments v3_scale : simpl never.
#[global] Arguments v3_unscale : simpl never.
#[global] Arguments v3_dot : simpl never.
#[global] Arguments v3_cross : simpl never.
#[global] Arguments v3_norm : simpl never.
#[global] Arguments v3_normalize : simpl never.
#[global] Arguments m33_transpose : simpl never.
#[global] Arguments m33_mulv : simpl never.
#[global] Arguments m33_mul : simpl never.
#[global] Arguments m33_det : simpl never.
#[global] Arguments m33_mul34 : simpl never.
#[global] Arguments m34_mulv : simpl never.
#[global] Arguments q_inverse : simpl never.
#[global] Arguments q_mul : simpl never.
#[global] Arguments q_rotate : simpl never.
#[global] Arguments q_to_rotation_matrix : simpl never.
#[global] Arguments rotm : simpl never.
#[global] Arguments qopp : simpl never.
#[global] Arguments vadd : simpl never.
#[global] Arguments vsub : simpl never.
#[global] Arguments vscl : simpl never.
#[global] Arguments vopp : simpl never.
#[global] Arguments vdot : simpl never.
#[global] Arguments vcross : simpl never.
#[global] Arguments mv : simpl never.
#[global] Arguments mm : simpl never.
#[global] Arguments mtr : simpl never.
#[global] Arguments mdet : simpl never.

Lemma o_two_R : o_two = 2 :> R.
Proof. unfold o_two; simpl; ring. Qed.
Lemma o_mtwo_R : o_mtwo = -2 :> R.
Proof. unfold o_mtwo; simpl; ring. Qed.
Lemma o_mone_R : o_mone = -1 :> R.
Proof. unfold o_mone; simpl; ring. Qed.
Lemma o_quarter_R : o_quarter = / 4 :> R.
Proof. unfold o_quarter; simpl; field. Qed.

Lemma V3_eq {T} (a b : V3 T) : vx a = vx b -> vy a = vy b -> vz a = vz b -> a = b.
Proof. destruct a, b; simpl; intros; subst; reflexivity. Qed.
Lemma V2_eq {T} (a b : V2 T) : px a = px b -> py a = py b -> a = b.
Proof. destruct a, b; simpl; intros; subst; reflexivity. Qed.
Lemma M33_eq {T} (a b : M33 T) :
  m00 a = m00 b -> m01 a = m01 b -> m02 a = m02 b ->
  m10 a = m10 b -> m11 a = m11 b -> m12 a = m12 b ->
  m20 a = m20 b -> m21 a = m21 b -> m22 a = m22 b -> a = b.
Proof. destruct a, b; simpl; intros; subst; reflexivity. Qed.
Lemma M34_eq {T} (a b : M34 T) :
  p00 a = p00 b -> p01 a = p01 b -> p02 a = p02 b -> p03 a = p03 b ->
  p10 a = p10 b -> p11 a = p11 b -> p12 a = p12 b -> p13 a = p13 b ->
  p20 a = p20 b -> p21 a = p21 b -> p22 a = p22 b -> p23 a = p23 b -> a = b.
Proof. destruct a, b; simpl; intros; subst; reflexivity. Qed.
Lemma Quat_eq {T} (a b : Quat T) :
  qi a = qi b -> qj a = qj b -> qk a = qk b -> qw a = qw b -> a = b.
Proof. destruct a, b; simpl; intros; subst; reflexivity. Qed.
Lemma V3_inv {T} (a b c a' b' c' : T) : mkV3 a b c = mkV3 a' b' c' -> a = a' /\ b = b' /\ c = c'.
Proof. intros H; injection H; auto. Qed.
Lemma M33_inv {T} (a b : M33 T) : a = b ->
  m00 a = m00 b /\ m01 a = m01 b /\ m02 a = m02 b /\
  m10 a = m10 b /\ m11 a = m11 b /\ m12 a = m12 b /\
  m20 a = m20 b /\ m21 a = m21 b /\ m22 a = m22 b.
Proof. intros ->; repeat split. Qed.

(** Unfold the model's linear algebra at [R] to plain real expressions. *)
Ltac ru_fun :=
  cbv beta iota zeta delta
   [v3_add v3_sub v3_neg v3_scale v3_unscale v3_dot v3_cross v3_norm_squared v3_norm v3_normalize
    m33_transpose m33_map m33_neg m33_scale m33_mulv m33_mul m33_det m33_mul34
    m34_map m34_neg m34_div m34_mulv m34_view33 m34_remove_col0 m34_remove_col1 m34_remove_col2
    m34_remove_col3 v3_to_homogeneous q_vec q_neg q_inverse q_mul q_rotate q_to_rotation_matrix
    iso_transform_point iso_transform_vector iso_inverse v3_zero v2_zero
    iso_rot iso_trans qi qj qk qw vx vy vz px py wx wy wz ww
    m00 m01 m02 m10 m11 m12 m20 m21 m22
    p00 p01 p02 p03 p10 p11 p12 p13 p20 p21 p22 p23 j00 j01 j02 j10 j11 j12
    from_rotation_and_camcenter from_pose e_rquat e_camcenter e_cache c_q c_translation c_qt
    c_q_inv c_camcenter_z0 c_pose c_pose_inv camcenter pose matrix rotation translation
    perspective_from ip_params ip_cache_p pp_fx pp_fy pp_skew pp_cx pp_cy
    io_params op_sx op_sy op_cx op_cy orthographic_from
    as_intrinsics_matrix so_center sd_direction so_new_shared_zero_origin sd_new_plusz_shared_direction
    persp_unproject_row persp_project_row ortho_unproject_row ortho_project_row
    so_at_distance_row sd_at_distance_row] in *.
Ltac ru_spec :=
  cbv beta iota zeta delta
   [vadd vsub vscl vopp vdot vcross vlen vdist vO triple vunit parallel mv mrow0 mrow1 mrow2 mcol0 mcol1 mcol2
    mm mtr mI mdet mscl kmat hstack left33 col4 happly hproject qnorm2 unit_quat qopp rotm to_camera to_world
    qi qj qk qw vx vy vz px py m00 m01 m02 m10 m11 m12 m20 m21 m22
    p00 p01 p02 p03 p10 p11 p12 p13 p20 p21 p22 p23] in *.
Ltac ru_ops :=
  rewrite ?o_two_R, ?o_mtwo_R, ?o_mone_R, ?o_quarter_R in *;
  cbv beta iota zeta delta
   [o_add o_sub o_mul o_div o_neg o_abs o_sqrt o_sin o_cos o_zero o_one R_ops] in *.
Ltac ru := ru_fun; ru_ops; ru_spec.
Ltac v3eq := apply V3_eq; simpl.

(** ** Model operations are the textbook ones *)
Lemma v3_add_R a b : v3_add a b = vadd a b. Proof. reflexivity. Qed.
Lemma v3_sub_R a b : v3_sub a b = vsub a b. Proof. reflexivity. Qed.
Lemma v3_neg_R a : v3_neg a = vopp a. Proof. reflexivity. Qed.
Lemma v3_dot_R a b : v3_dot a b = vdot a b. Proof. reflexivity. Qed.
Lemma v3_cross_R a b : v3_cross a b = vcross a b. Proof. reflexivity. Qed.
Lemma v3_norm_R a : v3_norm a = vlen a. Proof. reflexivity. Qed.
Lemma v3_normalize_R a : v3_normalize a = vunit a.
Proof. apply V3_eq; ru; unfold Rdiv; apply Rmult_comm. Qed.
Lemma m33_mulv_R m v : m33_mulv m v = mv m v. Proof. reflexivity. Qed.
Lemma m33_mul_R a b : m33_mul a b = mm a b. Proof. reflexivity. Qed.
Lemma m33_transpose_R (m : M33 R) : m33_transpose m = mtr m. Proof. reflexivity. Qed.
Ltac tospec :=
  repeat match goal with
  | |- context [@v3_add R R_ops ?a ?b] => change (@v3_add R R_ops a b) with (vadd a b)
  | |- context [@v3_sub R R_ops ?a ?b] => change (@v3_sub R R_ops a b) with (vsub a b)
  | |- context [@v3_neg R R_ops ?a] => change (@v3_neg R R_ops a) with (vopp a)
  | |- context [@v3_dot R R_ops ?a ?b] => change (@v3_dot R R_ops a b) with (vdot a b)
  | |- context [@v3_cross R R_ops ?a ?b] => change (@v3_cross R R_ops a b) with (vcross a b)
  | |- context [@v3_norm R R_ops ?a] => change (@v3_norm R R_ops a) with (vlen a)
  | |- context [@m33_mulv R R_ops ?a ?b] => change (@m33_mulv R R_ops a b) with (mv a b)
  | |- context [@m33_mul R R_ops ?a ?b] => change (@m33_mul R R_ops a b) with (mm a b)
  | |- context [@m33_transpose R ?a] => change (@m33_transpose R a) with (mtr a)
  end.
Lemma m33_det_R m : m33_det m = mdet m.
Proof. destruct m. ru. ring. Qed.

Lemma rotmat_R q : unit_quat q -> q_to_rotation_matrix q = rotm q.
Proof.
  destruct q as [x y z w]; intros H. apply M33_eq; ru; try ring;
  replace 1 with (x * x + y * y + z * z + w * w) by (rewrite H; reflexivity); ring.
Qed.
Lemma q_rotate_R q v : q_rotate q v = mv (rotm q) v.
Proof. destruct q as [x y z w], v as [a b c]. apply V3_eq; ru; ring. Qed.
