(** * FloatCamProofs.v - lemmas behind C31, C48 *)

From Coq Require Import ZArith Reals List Bool Lra.
From Flocq Require Import Core BinarySingleNaN.
From Verif Require Import Scalar Linalg Bundles Extrinsics Perspective Camera Linearize Rows Spec FloatBase.
Import ListNotations.

Section FloatCam.
Variables (prec emax : Z) (Hp : Prec_gt_0 prec) (He : Prec_lt_emax prec emax).
Variables fsin fcos : binary_float prec emax -> binary_float prec emax.
Local Notation F := (binary_float prec emax).
Local Hint Extern 0 (Ops (binary_float prec emax)) =>
  exact (B_ops prec emax Hp He fsin fcos) : typeclass_instances.
Local Notation nan := (B754_nan : F).
Local Notation zn := (zn prec emax).

Lemma zn_zero s : zn (B754_zero s). Proof. left. now exists s. Qed.
Lemma zn_div_zn x y : zn x -> zn y -> o_div x y = nan.
Proof.
  intros [[s ->]| ->] [[t ->]| ->]; first [reflexivity|apply div_nan_l|apply div_nan_r].
Qed.
Lemma zn_translation q sx sy sz :
  let t := translation (from_rotation_and_camcenter q (mkV3 (B754_zero sx) (B754_zero sy) (B754_zero sz) : V3 F)) in
  zn (vx t) /\ zn (vy t) /\ zn (vz t).
Proof.
  cbn zeta. unfold translation, from_rotation_and_camcenter; cbn [e_cache c_translation].
  unfold v3_neg, m33_mulv; cbn [vx vy vz].
  repeat split; apply zn_neg; repeat apply zn_add; apply zn_mul_r, zn_zero.
Qed.
(** Entry (2,3) before normalization. *)
Lemma raw_p23 (k : PerspectiveParams F) q c :
  zn (vz (translation (from_rotation_and_camcenter q c))) ->
  zn (p23 (m33_mul34 (as_intrinsics_matrix (perspective_from k)) (c_qt (e_cache (from_rotation_and_camcenter q c))))).
Proof.
  intros Z. unfold m33_mul34. cbn [p23]. repeat apply zn_add.
  - apply zn_mul_l. unfold as_intrinsics_matrix, perspective_from, m34_view33; cbn [m20 ip_cache_p p20]. apply zn_zero.
  - apply zn_mul_l. unfold as_intrinsics_matrix, perspective_from, m34_view33; cbn [m21 ip_cache_p p21]. apply zn_zero.
  - apply zn_mul_r. exact Z.
Qed.
Lemma normalized_p23 (m : M34 F) : zn (p23 m) ->
  p23 (m34_div (if o_ltb (p00 m) o_zero then m34_neg m else m)
               (p23 (if o_ltb (p00 m) o_zero then m34_neg m else m))) = nan.
Proof.
  intros Z. destruct (o_ltb _ _); unfold m34_div, m34_neg, m34_map; cbn [p23]; apply zn_div_zn; auto using zn_neg.
Qed.

Lemma C31_lemma (k : PerspectiveParams F) q c :
  ((exists s, vz (translation (from_rotation_and_camcenter q c)) = B754_zero s) \/
   (exists sx sy sz, c = mkV3 (B754_zero sx) (B754_zero sy) (B754_zero sz))) ->
  p23 (as_camera_matrix (camera_new (perspective_from k) (from_rotation_and_camcenter q c))) = nan.
Proof.
  intros H. unfold as_camera_matrix. apply normalized_p23, raw_p23.
  destruct H as [(s & ->)|(sx & sy & sz & ->)]; [apply zn_zero|apply zn_translation].
Qed.

Lemma C48_lemma (k : PerspectiveParams F) q c pt :
  ((exists s, vz (translation (from_rotation_and_camcenter q c)) = B754_zero s) \/
   (exists sx sy sz, c = mkV3 (B754_zero sx) (B754_zero sy) (B754_zero sz))) ->
  linearize_at (jacobian_cache_new (camera_new (perspective_from k) (from_rotation_and_camcenter q c))) pt
  = mkM23 nan nan nan nan nan nan.
Proof.
  intros H.
  change (jacobian_cache_new (camera_new (perspective_from k) (from_rotation_and_camcenter q c)))
    with (as_camera_matrix (camera_new (perspective_from k) (from_rotation_and_camcenter q c))).
  pose proof (C31_lemma k q c H) as E. set (m := as_camera_matrix _) in *. clearbody m.
  unfold linearize_at. rewrite E. unfold powi_m2. nanrw. reflexivity.
Qed.
End FloatCam.
