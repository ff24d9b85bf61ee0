(** * VecLemmas.v - real vector and matrix algebra used by the proofs *)

From Coq Require Import Reals List Lra Psatz Field.
From Verif Require Import Scalar Linalg Spec RealBase.
Local Open Scope R_scope.

Ltac vdestruct :=
  repeat match goal with
  | v : V3 R |- _ => destruct v
  | m : M33 R |- _ => destruct m
  | q : Quat R |- _ => destruct q
  end.
Ltac vring :=
  intros; vdestruct;
  repeat match goal with
  | |- @eq (V3 R) _ _ => apply V3_eq
  | |- @eq (M33 R) _ _ => apply M33_eq
  end; ru_spec; ring.

(** ** Vectors *)
Lemma vadd_0_r a : vadd a vO = a. Proof. vring. Qed.
Lemma vadd_0_l a : vadd vO a = a. Proof. vring. Qed.
Lemma vsub_0_r a : vsub a vO = a. Proof. vring. Qed.
Lemma vadd_comm a b : vadd a b = vadd b a. Proof. vring. Qed.
Lemma vadd_assoc a b c : vadd a (vadd b c) = vadd (vadd a b) c. Proof. vring. Qed.
Lemma vsub_diag a : vsub a a = vO. Proof. vring. Qed.
Lemma vadd_vsub a b : vadd (vsub a b) b = a. Proof. vring. Qed.
Lemma vsub_vadd a b : vsub (vadd a b) b = a. Proof. vring. Qed.
Lemma vscl_1 a : vscl 1 a = a. Proof. vring. Qed.
Lemma vscl_0 a : vscl 0 a = vO. Proof. vring. Qed.
Lemma vscl_O s : vscl s vO = vO. Proof. vring. Qed.
Lemma vscl_vscl s t a : vscl s (vscl t a) = vscl (s * t) a. Proof. vring. Qed.
Lemma vscl_vadd s a b : vscl s (vadd a b) = vadd (vscl s a) (vscl s b). Proof. vring. Qed.
Lemma vscl_vsub s a b : vscl s (vsub a b) = vsub (vscl s a) (vscl s b). Proof. vring. Qed.
Lemma vdot_comm a b : vdot a b = vdot b a. Proof. vring. Qed.
Lemma vdot_vadd_r a b c : vdot a (vadd b c) = vdot a b + vdot a c. Proof. vring. Qed.
Lemma vdot_vadd_l a b c : vdot (vadd b c) a = vdot b a + vdot c a. Proof. vring. Qed.
Lemma vdot_vsub_r a b c : vdot a (vsub b c) = vdot a b - vdot a c. Proof. vring. Qed.
Lemma vdot_vsub_l a b c : vdot (vsub b c) a = vdot b a - vdot c a. Proof. vring. Qed.
Lemma vdot_vscl_r s a b : vdot a (vscl s b) = s * vdot a b. Proof. vring. Qed.
Lemma vdot_vscl_l s a b : vdot (vscl s a) b = s * vdot a b. Proof. vring. Qed.
Lemma vdot_O_r a : vdot a vO = 0. Proof. vring. Qed.
Lemma vdot_O_l a : vdot vO a = 0. Proof. vring. Qed.
Lemma vcross_self a : vcross a a = vO. Proof. vring. Qed.
Lemma vcross_anti a b : vcross a b = vopp (vcross b a). Proof. vring. Qed.
Lemma vdot_vcross_l a b : vdot a (vcross a b) = 0. Proof. vring. Qed.
Lemma vdot_vcross_r a b : vdot b (vcross a b) = 0. Proof. vring. Qed.
Lemma vcross_vscl_l s a b : vcross (vscl s a) b = vscl s (vcross a b). Proof. vring. Qed.
Lemma vcross_vscl_r s a b : vcross a (vscl s b) = vscl s (vcross a b). Proof. vring. Qed.
Lemma lagrange a b : vdot (vcross a b) (vcross a b) = vdot a a * vdot b b - vdot a b * vdot a b.
Proof. vring. Qed.
Lemma vcross_vcross a b c : vcross a (vcross b c) = vsub (vscl (vdot a c) b) (vscl (vdot a b) c).
Proof. vring. Qed.

Lemma vdot_self_nonneg a : 0 <= vdot a a.
Proof. destruct a; ru_spec; nra. Qed.
Lemma vdot_self_0 a : vdot a a = 0 -> a = vO.
Proof. destruct a as [x y z]; ru_spec; intros H; apply V3_eq; simpl; nra. Qed.
Lemma vdot_self_pos a : a <> vO -> 0 < vdot a a.
Proof.
  intros H. destruct (vdot_self_nonneg a) as [L|E]; [exact L|].
  exfalso; apply H, vdot_self_0; now symmetry.
Qed.
Lemma vlen_nonneg a : 0 <= vlen a. Proof. apply sqrt_pos. Qed.
Lemma vlen_sq a : vlen a * vlen a = vdot a a.
Proof. apply sqrt_sqrt, vdot_self_nonneg. Qed.
Lemma vlen_pos a : a <> vO -> 0 < vlen a.
Proof. intros H; apply sqrt_lt_R0, vdot_self_pos, H. Qed.
Lemma vlen_0 a : vlen a = 0 -> a = vO.
Proof. intros H; apply vdot_self_0; rewrite <- vlen_sq, H; ring. Qed.
Lemma vlen_O : vlen vO = 0.
Proof. unfold vlen. rewrite vdot_O_l. apply sqrt_0. Qed.
Lemma vlen_vscl s a : vlen (vscl s a) = Rabs s * vlen a.
Proof.
  unfold vlen. replace (vdot (vscl s a) (vscl s a)) with (s² * vdot a a) by (unfold Rsqr; vring).
  rewrite sqrt_mult_alt by apply Rle_0_sqr. now rewrite sqrt_Rsqr_abs.
Qed.
Lemma vlen_unique a l : 0 <= l -> l * l = vdot a a -> vlen a = l.
Proof. intros H E. unfold vlen; rewrite <- E. now apply sqrt_square. Qed.
Lemma vlen_1 a : vdot a a = 1 -> vlen a = 1.
Proof. intros H; apply vlen_unique; lra. Qed.
Lemma vunit_len a : a <> vO -> vlen (vunit a) = 1.
Proof.
  intros H. pose proof (vlen_pos a H). unfold vunit. rewrite vlen_vscl, Rabs_right.
  - now rewrite Rinv_l by lra.
  - left; now apply Rinv_0_lt_compat.
Qed.
Lemma vunit_dot a : a <> vO -> vdot (vunit a) (vunit a) = 1.
Proof. intros H; rewrite <- vlen_sq, vunit_len by assumption; ring. Qed.
Lemma vunit_nonzero a : a <> vO -> vunit a <> vO.
Proof.
  intros H E. apply vunit_dot in H. rewrite E, vdot_O_l in H. lra.
Qed.
Lemma vunit_id a : vdot a a = 1 -> vunit a = a.
Proof. intros H; unfold vunit; rewrite vlen_1 by assumption; rewrite Rinv_1; apply vscl_1. Qed.
Lemma vunit_scale a : a <> vO -> vscl (vlen a) (vunit a) = a.
Proof.
  intros H; unfold vunit; rewrite vscl_vscl, Rinv_r, vscl_1; auto.
  pose proof (vlen_pos a H); lra.
Qed.
Lemma vunit_vscl s a : 0 < s -> vunit (vscl s a) = vunit a.
Proof.
  intros H. unfold vunit. rewrite vlen_vscl, Rabs_right, vscl_vscl by lra.
  destruct (Req_EM_T (vlen a) 0) as [E|E].
  - apply vlen_0 in E; subst. now rewrite !vscl_O.
  - f_equal. field. lra.
Qed.
Lemma vcross_nonzero_l a b : vcross a b <> vO -> a <> vO.
Proof. intros H ->. apply H. vring. Qed.
Lemma vcross_nonzero_r a b : vcross a b <> vO -> b <> vO.
Proof. intros H ->. apply H. vring. Qed.

(** ** Matrices *)
Lemma mv_vadd m a b : mv m (vadd a b) = vadd (mv m a) (mv m b). Proof. vring. Qed.
Lemma mv_vsub m a b : mv m (vsub a b) = vsub (mv m a) (mv m b). Proof. vring. Qed.
Lemma mv_vscl m s a : mv m (vscl s a) = vscl s (mv m a). Proof. vring. Qed.
Lemma mv_vopp m a : mv m (vopp a) = vopp (mv m a). Proof. vring. Qed.
Lemma mv_O m : mv m vO = vO. Proof. vring. Qed.
Lemma mv_mm a b v : mv (mm a b) v = mv a (mv b v). Proof. vring. Qed.
Lemma mv_I v : mv mI v = v. Proof. vring. Qed.
Lemma mm_assoc a b c : mm a (mm b c) = mm (mm a b) c. Proof. vring. Qed.
Lemma mm_I_l a : mm mI a = a. Proof. vring. Qed.
Lemma mm_I_r a : mm a mI = a. Proof. vring. Qed.
Lemma mtr_mm a b : mtr (mm a b) = mm (mtr b) (mtr a). Proof. vring. Qed.
Lemma mtr_mtr a : mtr (mtr a) = a. Proof. vring. Qed.
Lemma mdet_mm a b : mdet (mm a b) = mdet a * mdet b. Proof. vring. Qed.
Lemma mdet_mtr a : mdet (mtr a) = mdet a. Proof. vring. Qed.
Lemma mdet_I : mdet mI = 1. Proof. vring. Qed.
Lemma vdot_mv m a b : vdot (mv m a) b = vdot a (mv (mtr m) b). Proof. vring. Qed.

Lemma orthogonal_dot m a b : orthogonal m -> vdot (mv m a) (mv m b) = vdot a b.
Proof. intros [H _]. rewrite vdot_mv, <- mv_mm, H, mv_I. reflexivity. Qed.
Lemma orthogonal_len m a : orthogonal m -> vlen (mv m a) = vlen a.
Proof. intros H; unfold vlen; now rewrite orthogonal_dot. Qed.
Lemma orthogonal_inv_l m a : orthogonal m -> mv (mtr m) (mv m a) = a.
Proof. intros [H _]. now rewrite <- mv_mm, H, mv_I. Qed.
Lemma orthogonal_inv_r m a : orthogonal m -> mv m (mv (mtr m) a) = a.
Proof. intros [_ H]. now rewrite <- mv_mm, H, mv_I. Qed.
Lemma orthogonal_mtr m : orthogonal m -> orthogonal (mtr m).
Proof. intros [A B]; split; rewrite mtr_mtr; assumption. Qed.
Lemma orthogonal_mm a b : orthogonal a -> orthogonal b -> orthogonal (mm a b).
Proof.
  intros [A1 A2] [B1 B2]; split; rewrite mtr_mm.
  - rewrite <- mm_assoc, (mm_assoc (mtr a)), A1, mm_I_l. exact B1.
  - rewrite <- mm_assoc, (mm_assoc b), B2, mm_I_l. exact A2.
Qed.
Lemma orthogonal_det m : orthogonal m -> mdet m * mdet m = 1.
Proof. intros [H _]. rewrite <- mdet_I, <- H, mdet_mm, mdet_mtr. reflexivity. Qed.
Lemma is_rotation_mtr m : is_rotation m -> is_rotation (mtr m).
Proof. intros [A B]; split; [now apply orthogonal_mtr|now rewrite mdet_mtr]. Qed.
Lemma is_rotation_mm a b : is_rotation a -> is_rotation b -> is_rotation (mm a b).
Proof.
  intros [A1 A2] [B1 B2]; split; [now apply orthogonal_mm|]. rewrite mdet_mm, A2, B2; ring.
Qed.
(** A rotation maps the cross product to the cross product. *)
Lemma cofactor_cross m a b : mv (mtr m) (vcross (mv m a) (mv m b)) = vscl (mdet m) (vcross a b).
Proof. vring. Qed.
Lemma rotation_cross m a b : is_rotation m -> vcross (mv m a) (mv m b) = mv m (vcross a b).
Proof.
  intros [H D]. rewrite <- (orthogonal_inv_r m (vcross (mv m a) (mv m b)) H).
  now rewrite cofactor_cross, D, vscl_1.
Qed.
Lemma triple_mv m a b c : triple (mv m a) (mv m b) (mv m c) = mdet m * triple a b c.
Proof. vring. Qed.

(** ** Quaternions *)
Lemma rotm_orthogonal q : unit_quat q -> orthogonal (rotm q).
Proof.
  destruct q as [x y z w]; unfold unit_quat, qnorm2; simpl; intros H.
  assert (W : w * w = 1 - x*x - y*y - z*z) by lra.
  split; apply M33_eq; ru_spec; ring_simplify; try nra;
  replace (w ^ 2) with (1 - x*x - y*y - z*z) by (rewrite <- W; ring); ring.
Qed.
Lemma rotm_det q : unit_quat q -> mdet (rotm q) = 1.
Proof.
  destruct q as [x y z w]; unfold unit_quat, qnorm2; simpl; intros H.
  assert (W : w ^ 2 = 1 - x*x - y*y - z*z) by lra.
  ru_spec; ring_simplify; replace (w ^ 2) with (1 - x*x - y*y - z*z); ring.
Qed.
Lemma rotm_rotation q : unit_quat q -> is_rotation (rotm q).
Proof. split; [now apply rotm_orthogonal|now apply rotm_det]. Qed.
Lemma unit_quat_inverse q : unit_quat q -> unit_quat (q_inverse q).
Proof. destruct q; unfold unit_quat; ru; lra. Qed.
Lemma rotm_inverse q : rotm (q_inverse q) = mtr (rotm q).
Proof. destruct q; apply M33_eq; ru; ring. Qed.
Lemma unit_quat_mul a b : unit_quat a -> unit_quat b -> unit_quat (q_mul a b).
Proof.
  intros A B. assert (E : qnorm2 (q_mul a b) = qnorm2 a * qnorm2 b) by (destruct a, b; ru; ring).
  unfold unit_quat in *; rewrite E, A, B; ring.
Qed.
Lemma q_rotate_mul a b v : unit_quat a -> unit_quat b ->
  q_rotate (q_mul a b) v = q_rotate a (q_rotate b v).
Proof.
  intros A B.
  assert (E : q_to_rotation_matrix (q_mul a b)
              = mm (q_to_rotation_matrix a) (q_to_rotation_matrix b)).
  { destruct a, b; apply M33_eq; ru; ring. }
  rewrite !q_rotate_R, <- !rotmat_R by (try apply unit_quat_mul; assumption).
  now rewrite E, mv_mm.
Qed.

(** The adjugate; a one-sided orthogonality is enough. *)
Definition madj (m : M33 R) : M33 R :=
  mkM33 (m11 m * m22 m - m12 m * m21 m) (m02 m * m21 m - m01 m * m22 m) (m01 m * m12 m - m02 m * m11 m)
        (m12 m * m20 m - m10 m * m22 m) (m00 m * m22 m - m02 m * m20 m) (m02 m * m10 m - m00 m * m12 m)
        (m10 m * m21 m - m11 m * m20 m) (m01 m * m20 m - m00 m * m21 m) (m00 m * m11 m - m01 m * m10 m).
Lemma madj_r m : mm m (madj m) = mscl (mdet m) mI.
Proof. destruct m; unfold madj, mscl; apply M33_eq; ru_spec; ring. Qed.
Lemma madj_l m : mm (madj m) m = mscl (mdet m) mI.
Proof. destruct m; unfold madj, mscl; apply M33_eq; ru_spec; ring. Qed.
Lemma mm_mscl_r s a b : mm a (mscl s b) = mscl s (mm a b).
Proof. destruct a, b; unfold mscl; apply M33_eq; ru_spec; ring. Qed.
Lemma mm_mscl_l s a b : mm (mscl s a) b = mscl s (mm a b).
Proof. destruct a, b; unfold mscl; apply M33_eq; ru_spec; ring. Qed.
Lemma mscl_mscl s t a : mscl s (mscl t a) = mscl (s * t) a.
Proof. destruct a; unfold mscl; apply M33_eq; ru_spec; ring. Qed.
Lemma mscl_1 a : mscl 1 a = a.
Proof. destruct a; unfold mscl; apply M33_eq; ru_spec; ring. Qed.
Lemma mv_mscl s a v : mv (mscl s a) v = vscl s (mv a v).
Proof. destruct a, v; unfold mscl; apply V3_eq; ru_spec; ring. Qed.
Lemma orthogonal_left m : mm (mtr m) m = mI -> orthogonal m.
Proof.
  intros L. split; [exact L|].
  assert (D : mdet m * mdet m = 1) by (rewrite <- mdet_I, <- L, mdet_mm, mdet_mtr; reflexivity).
  assert (A : madj m = mscl (mdet m) (mtr m)).
  { rewrite <- (mm_I_l (madj m)), <- L, <- mm_assoc, madj_r, mm_mscl_r, mm_I_r. reflexivity. }
  rewrite <- (mscl_1 (mm m (mtr m))), <- D, <- mscl_mscl, <- mm_mscl_r, <- A, madj_r, mscl_mscl, D.
  apply mscl_1.
Qed.
Lemma orthogonal_right m : mm m (mtr m) = mI -> orthogonal m.
Proof.
  intros L. rewrite <- (mtr_mtr m). apply orthogonal_mtr, orthogonal_left. now rewrite mtr_mtr.
Qed.
