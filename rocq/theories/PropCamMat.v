(** * PropCamMat.v - property theorems C30-C37, C47, C48, C59-C61 *)

From Coq Require Import List Reals Lra ZArith.
From Flocq Require Import Core BinarySingleNaN.
From Verif Require Import Scalar Linalg Householder Bundles Extrinsics Perspective Camera Linearize Spec RealBase VecLemmas ExtrinsicsProofs IntrinsicsProofs CamMatProofs JacProofs FloatCamProofs PropCamera.
Import ListNotations.
Local Open Scope R_scope.

(** The camera and the projection matrix used in the examples. *)
Definition ex_cam := camera_new (perspective_from ex_k) (from_rotation_and_camcenter ex_q ex_c).
Definition ex_p : M34 R := mkM34 1 2 3 4 0 5 6 7 1 0 1 2.
Lemma ex_origin_off_plane : vz (mv (rotm ex_q) ex_c) <> 0.
Proof. unfold ex_q, ex_c; ru_spec; lra. Qed.
Lemma ex_p_invertible : mdet (left33 ex_p) <> 0.
Proof. unfold ex_p; ru_spec; lra. Qed.
Lemma ex_depth : vz (mv (rotm ex_q) (vsub (mkV3 2 4 5) ex_c)) <> 0.
Proof. unfold ex_q, ex_c; ru_spec; lra. Qed.

(** C30: the camera matrix is normalized and projects like the camera. *)
Theorem C30_camera_matrix_models_camera k q c : unit_quat q -> vz (mv (rotm q) c) <> 0 ->
  let cam := camera_new (perspective_from k) (from_rotation_and_camcenter q c) in
  p23 (as_camera_matrix cam) = 1 /\
  (forall pts, Forall (fun x => vz (mv (rotm q) (vsub x c)) <> 0) pts ->
     world_to_pixel cam (mkPoints pts) = Some (mkPixels (map (hproject (as_camera_matrix cam)) pts))).
Proof. exact (C30_lemma k q c). Qed.
Print Assumptions C30_camera_matrix_models_camera.

Example C30_case : p23 (as_camera_matrix ex_cam) = 1 /\
  world_to_pixel ex_cam (mkPoints [mkV3 2 4 5]) = Some (mkPixels [hproject (as_camera_matrix ex_cam) (mkV3 2 4 5)]).
Proof.
  destruct (C30_camera_matrix_models_camera ex_k ex_q ex_c ex_q_unit ex_origin_off_plane) as (A & B).
  split; [exact A|]. apply (B [mkV3 2 4 5]). constructor; [apply ex_depth|constructor].
Qed.

(** C32: the camera matrix and the cached matrix of the Jacobian are K[R|t] / t_z,
    the sign of the first entry playing no role. *)
Theorem C32_sign_flip_no_effect k q c : unit_quat q ->
  let K := kmat (pp_fx k) (pp_fy k) (pp_skew k) (pp_cx k) (pp_cy k) in
  let t := vopp (mv (rotm q) c) in
  vz t <> 0 ->
  as_camera_matrix (camera_new (perspective_from k) (from_rotation_and_camcenter q c))
  = hstack (mscl (/ vz t) (mm K (rotm q))) (vscl (/ vz t) (mv K t)) /\
  jacobian_cache_new (camera_new (perspective_from k) (from_rotation_and_camcenter q c))
  = hstack (mscl (/ vz t) (mm K (rotm q))) (vscl (/ vz t) (mv K t)).
Proof. exact (C32_lemma k q c). Qed.
Print Assumptions C32_sign_flip_no_effect.

Example C32_case : p00 (as_camera_matrix (camera_new (perspective_from (mkPP (-100) 102 0 321 239))
    (from_rotation_and_camcenter ex_q (mkV3 0 0 2)))) = 14.
Proof.
  destruct (C32_sign_flip_no_effect (mkPP (-100) 102 0 321 239) ex_q (mkV3 0 0 2) ex_q_unit) as (H & _).
  - unfold ex_q; ru_spec; lra.
  - rewrite H. clear. unfold ex_q; ru_spec. cbn [pp_fx pp_skew pp_cx]. field.
Qed.

(** C33: the camera made from a projection matrix projects like the matrix. *)
Theorem C33_from_perspective_matrix p : mdet (left33 p) <> 0 -> exists k q c,
  from_perspective_matrix p = Some (Ok (camera_new (perspective_from k) (from_rotation_and_camcenter q c))) /\
  0 < pp_fx k /\ 0 < pp_fy k /\ unit_quat q /\
  (forall pts, Forall (fun x => vz (happly p x) <> 0) pts ->
     world_to_pixel (camera_new (perspective_from k) (from_rotation_and_camcenter q c)) (mkPoints pts)
     = Some (mkPixels (map (hproject p) pts))).
Proof. exact (C33_lemma p). Qed.
Print Assumptions C33_from_perspective_matrix.

Example C33_case : exists cam, from_perspective_matrix ex_p = Some (Ok cam) /\
  world_to_pixel cam (mkPoints [mkV3 1 1 1]) = Some (mkPixels [mkV2 (10/4) (18/4)]).
Proof.
  destruct (C33_from_perspective_matrix ex_p ex_p_invertible) as (k & q & c & H & _ & _ & _ & P).
  eexists. split; [exact H|]. rewrite P.
  - cbn [map]. do 3 f_equal. unfold ex_p; apply V2_eq; ru_spec; field.
  - repeat constructor. unfold ex_p; ru_spec; lra.
Qed.

(** C34: from_perspective_matrix undoes as_camera_matrix. *)
Theorem C34_from_matrix_inverts k q c : 0 < pp_fx k -> 0 < pp_fy k -> unit_quat q -> vz (mv (rotm q) c) <> 0 ->
  let cam := camera_new (perspective_from k) (from_rotation_and_camcenter q c) in
  exists q', from_perspective_matrix (as_camera_matrix cam)
             = Some (Ok (camera_new (perspective_from k) (from_rotation_and_camcenter q' c))) /\
    unit_quat q' /\ rotm q' = rotm q.
Proof. exact (C34_lemma k q c). Qed.
Print Assumptions C34_from_matrix_inverts.

Example C34_case : exists q', from_perspective_matrix (as_camera_matrix ex_cam)
  = Some (Ok (camera_new (perspective_from ex_k) (from_rotation_and_camcenter q' (mkV3 1 2 3)))) /\ rotm q' = rotm ex_q.
Proof.
  destruct (C34_from_matrix_inverts ex_k ex_q ex_c) as (q' & A & _ & B).
  - simpl; lra.
  - simpl; lra.
  - apply ex_q_unit.
  - apply ex_origin_off_plane.
  - now exists q'.
Qed.

(** C35: the center of a projection matrix is its only null point. *)
Theorem C35_camera_center p : mdet (left33 p) <> 0 ->
  happly p (pmat2cam_center p) = vO /\ (forall x, happly p x = vO -> x = pmat2cam_center p).
Proof. exact (C35_lemma p). Qed.
Print Assumptions C35_camera_center.

Example C35_case : pmat2cam_center ex_p = mkV3 0 1 (-2).
Proof.
  symmetry. apply (proj2 (C35_camera_center ex_p ex_p_invertible)).
  unfold ex_p; apply V3_eq; ru_spec; lra.
Qed.

(** C36: from_perspective_matrix returns Ok for every matrix of every scalar type. *)
Theorem C36_from_matrix_never_fails {T} {O : Ops T} (p : M34 T) : exists cam, from_perspective_matrix p = Some (Ok cam).
Proof. exact (C36_lemma p). Qed.
Print Assumptions C36_from_matrix_never_fails.

Example C36_case : exists cam, from_perspective_matrix (mkM34 0 0 0 0 0 0 0 0 0 0 0 0) = Some (Ok cam).
Proof. exact (C36_from_matrix_never_fails _). Qed.

(** C37: the RQ decomposition of any matrix, of rank 3 or not. *)
Theorem C37_rq A :
  (exists Rm Q, rq A = (Rm, Q) /\ upper_triangular Rm /\ 0 <= m00 Rm /\ 0 <= m11 Rm /\ 0 <= m22 Rm /\
     orthogonal Q /\ mm Rm Q = A /\ flip_signs Rm Q = Some (Rm, Q)) /\
  (exists q k, rq_decomposition A = Some (Ok (q, k)) /\ unit_quat q /\ is_rotation (rotm q) /\
     mm k (rotm q) = A /\ upper_triangular k /\
     ((0 <= m00 k /\ 0 <= m11 k /\ 0 <= m22 k) \/ (m00 k <= 0 /\ m11 k <= 0 /\ m22 k <= 0))).
Proof. exact (C37_lemma A). Qed.
Print Assumptions C37_rq.

Example C37_case : exists q k, rq_decomposition (mkM33 1 2 3 2 4 6 3 6 9) = Some (Ok (q, k)) /\
  mm k (rotm q) = mkM33 1 2 3 2 4 6 3 6 9 /\ upper_triangular k.
Proof.
  destruct (proj2 (C37_rq (mkM33 1 2 3 2 4 6 3 6 9))) as (q & k & A & _ & _ & B & C & _). now exists q, k.
Qed.

(** C47: the Jacobian is the derivative of the projection [F]. *)
Theorem C47_jacobian_is_derivative k q c (F : V3 R -> V2 R) p : unit_quat q -> vz (mv (rotm q) c) <> 0 ->
  let cam := camera_new (perspective_from k) (from_rotation_and_camcenter q c) in
  let depth x := vz (mv (rotm q) (vsub x c)) in
  let J := linearize_at (jacobian_cache_new cam) p in
  let ru := mkV3 (j00 J) (j01 J) (j02 J) in
  let rv := mkV3 (j10 J) (j11 J) (j12 J) in
  (forall x, depth x <> 0 -> world_to_pixel cam (mkPoints [x]) = Some (mkPixels [F x])) ->
  depth p <> 0 ->
  (forall o, depth (vadd p o) <> 0 ->
     px (F (vadd p o)) - px (F p) = depth p / depth (vadd p o) * vdot ru o /\
     py (F (vadd p o)) - py (F p) = depth p / depth (vadd p o) * vdot rv o) /\
  (forall eps, 0 < eps -> exists delta, 0 < delta /\ forall o, vlen o < delta ->
     Rabs (px (F (vadd p o)) - px (F p) - vdot ru o) <= eps * vlen o /\
     Rabs (py (F (vadd p o)) - py (F p) - vdot rv o) <= eps * vlen o) /\
  (forall e, derivable_pt_lim (fun t => px (F (vadd p (vscl t e)))) 0 (vdot ru e) /\
             derivable_pt_lim (fun t => py (F (vadd p (vscl t e)))) 0 (vdot rv e)).
Proof. exact (C47_lemma k q c F p). Qed.
Print Assumptions C47_jacobian_is_derivative.

(** For a camera without rotation one unit behind the origin, at (1, 2, 1),
    which has depth 2: the derivative of u = 100 x / (z + 1) + ... by x is 50. *)
Example C47_case :
  let cam := camera_new (perspective_from (mkPP 100 100 0 320 240)) (from_rotation_and_camcenter (mkQuat 0 0 0 1) (mkV3 0 0 (-1))) in
  exists F, (forall x, vz x + 1 <> 0 -> world_to_pixel cam (mkPoints [x]) = Some (mkPixels [F x])) /\
  j00 (linearize_at (jacobian_cache_new cam) (mkV3 1 2 1)) = 50 /\
  derivable_pt_lim (fun t => px (F (vadd (mkV3 1 2 1) (vscl t (mkV3 1 0 0))))) 0 50.
Proof.
  intros cam.
  assert (U : unit_quat (mkQuat 0 0 0 1)) by (ru_spec; lra).
  assert (Z : vz (mv (rotm (mkQuat 0 0 0 1)) (mkV3 0 0 (-1))) <> 0) by (ru_spec; lra).
  assert (DE : forall x, vz (mv (rotm (mkQuat 0 0 0 1)) (vsub x (mkV3 0 0 (-1)))) = vz x + 1)
    by (intros [a b c]; ru_spec; ring).
  assert (J : j00 (linearize_at (jacobian_cache_new cam) (mkV3 1 2 1)) = 50).
  { assert (Z2 : vz (vopp (mv (rotm (mkQuat 0 0 0 1)) (mkV3 0 0 (-1)))) <> 0) by (clear; ru_spec; lra).
    unfold cam. rewrite (proj2 (C32_sign_flip_no_effect (mkPP 100 100 0 320 240) _ _ U Z2)). clear.
    unfold linearize_at, powi_m2, hstack. ru_spec. cbn. ru. field. }
  assert (HF : forall x, vz x + 1 <> 0 -> world_to_pixel cam (mkPoints [x]) = Some (mkPixels [hproject (as_camera_matrix cam) x])).
  { intros x Hx. refine (proj2 (C30_camera_matrix_models_camera _ _ _ U Z) [x] _).
    constructor; [now rewrite DE|constructor]. }
  exists (hproject (as_camera_matrix cam)). split; [exact HF|]. split; [exact J|].
  pose proof (C47_jacobian_is_derivative (mkPP 100 100 0 320 240) _ _ (hproject (as_camera_matrix cam)) (mkV3 1 2 1) U Z) as H.
  cbv beta zeta in H. destruct H as (_ & _ & H).
  - intros x Hx. apply HF. now rewrite <- DE.
  - rewrite DE. cbn [vz]. lra.
  - destruct (H (mkV3 1 0 0)) as (H1 & _). unfold cam in J. rewrite J in H1.
    match type of H1 with derivable_pt_lim _ _ ?d => replace d with 50 in H1 by (unfold vdot; cbn [vx vy vz]; ring) end.
    exact H1.
Qed.

(** C59: the camera matrix of the camera made from P is P divided by its last entry. *)
Theorem C59_matrix_roundtrip p : mdet (left33 p) <> 0 -> p23 p <> 0 -> exists cam,
  from_perspective_matrix p = Some (Ok cam) /\
  as_camera_matrix cam = hstack (mscl (/ p23 p) (left33 p)) (vscl (/ p23 p) (col4 p)).
Proof. exact (C59_lemma p). Qed.
Print Assumptions C59_matrix_roundtrip.

Example C59_case : exists cam, from_perspective_matrix ex_p = Some (Ok cam) /\
  as_camera_matrix cam = mkM34 (1/2) 1 (3/2) 2 0 (5/2) 3 (7/2) (1/2) 0 (1/2) 1.
Proof.
  destruct (C59_matrix_roundtrip ex_p ex_p_invertible) as (cam & A & B).
  - unfold ex_p; simpl; lra.
  - exists cam. split; [exact A|]. rewrite B. unfold ex_p, hstack. f_equal; ru_spec; field.
Qed.

(** C60: multiplying the projection matrix by any nonzero number, negative ones
    included, gives the same camera (up to the sign of the quaternion). *)
Theorem C60_matrix_scale_invariant p s : mdet (left33 p) <> 0 -> s <> 0 -> exists k q q' c,
  from_perspective_matrix p = Some (Ok (camera_new (perspective_from k) (from_rotation_and_camcenter q c))) /\
  from_perspective_matrix (hstack (mscl s (left33 p)) (vscl s (col4 p)))
  = Some (Ok (camera_new (perspective_from k) (from_rotation_and_camcenter q' c))) /\
  unit_quat q /\ unit_quat q' /\ rotm q' = rotm q.
Proof. exact (C60_lemma p s). Qed.
Print Assumptions C60_matrix_scale_invariant.

Example C60_case : exists k q q' c, from_perspective_matrix ex_p
    = Some (Ok (camera_new (perspective_from k) (from_rotation_and_camcenter q c))) /\
  from_perspective_matrix (mkM34 (-3 * 1) (-3 * 2) (-3 * 3) (-3 * 4) (-3 * 0) (-3 * 5) (-3 * 6) (-3 * 7) (-3 * 1) (-3 * 0) (-3 * 1) (-3 * 2))
    = Some (Ok (camera_new (perspective_from k) (from_rotation_and_camcenter q' c))) /\ rotm q' = rotm q.
Proof.
  destruct (C60_matrix_scale_invariant ex_p (-3) ex_p_invertible) as (k & q & q' & c & A & B & _ & _ & D); [lra|].
  exists k, q, q', c. auto.
Qed.

(** C61: with the plain matrix K[R|t] instead of the normalized one the same
    formulas are the derivative for every camera. *)
Theorem C61_normalization_not_needed k q c (F : V3 R -> V2 R) p : unit_quat q ->
  let cam := camera_new (perspective_from k) (from_rotation_and_camcenter q c) in
  let K := kmat (pp_fx k) (pp_fy k) (pp_skew k) (pp_cx k) (pp_cy k) in
  let depth x := vz (mv (rotm q) (vsub x c)) in
  let J := linearize_at (hstack (mm K (rotm q)) (mv K (vopp (mv (rotm q) c)))) p in
  let ru := mkV3 (j00 J) (j01 J) (j02 J) in
  let rv := mkV3 (j10 J) (j11 J) (j12 J) in
  (forall x, depth x <> 0 -> world_to_pixel cam (mkPoints [x]) = Some (mkPixels [F x])) ->
  depth p <> 0 ->
  (forall eps, 0 < eps -> exists delta, 0 < delta /\ forall o, vlen o < delta ->
     Rabs (px (F (vadd p o)) - px (F p) - vdot ru o) <= eps * vlen o /\
     Rabs (py (F (vadd p o)) - py (F p) - vdot rv o) <= eps * vlen o).
Proof. exact (C61_lemma k q c F p). Qed.
Print Assumptions C61_normalization_not_needed.

(** A camera at the origin; (3, 2, 10) has depth 10 and u = 10 x, so to say. *)
Example C61_case :
  let cam := camera_new (perspective_from (mkPP 100 100 0 320 240)) (from_rotation_and_camcenter (mkQuat 0 0 0 1) vO) in
  exists F, (forall x, vz x <> 0 -> world_to_pixel cam (mkPoints [x]) = Some (mkPixels [F x])) /\
  forall eps, 0 < eps -> exists delta, 0 < delta /\ forall t, Rabs t < delta ->
    Rabs (px (F (mkV3 (3 + t) 2 10)) - px (F (mkV3 3 2 10)) - 10 * t) <= eps * Rabs t.
Proof.
  intros cam.
  assert (U : unit_quat (mkQuat 0 0 0 1)) by (ru_spec; lra).
  assert (DE : forall x, vz (mv (rotm (mkQuat 0 0 0 1)) (vsub x vO)) = vz x)
    by (intros [a b c]; ru_spec; ring).
  assert (HF : forall x, vz x <> 0 -> world_to_pixel cam (mkPoints [x])
      = Some (mkPixels [hproject (mkM34 100 0 320 0 0 100 240 0 0 0 1 0) x])).
  { intros x Hx. unfold cam. rewrite world_to_pixel_persp; [|exact U|constructor; [now rewrite <- (DE x) in Hx|constructor]].
    cbn [map]. do 3 f_equal. clear -Hx. destruct x as [a b c]. cbn in Hx. unfold persp_pixel; apply V2_eq; ru_spec; cbn [pp_fx pp_fy pp_skew pp_cx pp_cy]; field; lra. }
  exists (hproject (mkM34 100 0 320 0 0 100 240 0 0 0 1 0)). split; [exact HF|].
  pose proof (C61_normalization_not_needed (mkPP 100 100 0 320 240) _ vO _ (mkV3 3 2 10) U
    (fun x Hx => HF x ltac:(now rewrite <- DE))) as H.
  cbv beta zeta in H. specialize (H ltac:(rewrite DE; cbn; lra)).
  intros eps E0. destruct (H eps E0) as (d & dp & Hd). exists d. split; [exact dp|]. intros t Ht.
  assert (V : vlen (mkV3 t 0 0) = Rabs t).
  { replace (mkV3 t 0 0) with (vscl t (mkV3 1 0 0)) by (apply V3_eq; ru_spec; ring).
    rewrite vlen_vscl. replace (vlen (mkV3 1 0 0)) with 1; [ring|]. symmetry. apply vlen_unique; [lra|ru_spec; lra]. }
  destruct (Hd (mkV3 t 0 0)) as (H1 & _); [now rewrite V|]. rewrite V in H1. clear -H1.
  replace (vadd (mkV3 3 2 10) (mkV3 t 0 0)) with (mkV3 (3 + t) 2 10) in H1 by (apply V3_eq; ru_spec; ring).
  match type of H1 with Rabs (_ - _ - ?r) <= _ => replace r with (10 * t) in H1 end; [exact H1|].
  clear. unfold linearize_at, powi_m2, hstack. ru_spec. cbn. ru. field.
Qed.

Section IEEE.
Variables (prec emax : Z) (Hp : Prec_gt_0 prec) (He : Prec_lt_emax prec emax).
Variables fsin fcos : binary_float prec emax -> binary_float prec emax.
Local Notation F := (binary_float prec emax).
Local Hint Extern 0 (Ops (binary_float prec emax)) =>
  exact (B_ops prec emax Hp He fsin fcos) : typeclass_instances.
Local Notation nan := (B754_nan : F).

(** C31: if the world origin is in the camera plane, in particular at the camera
    center, the last entry of the camera matrix is NaN instead of 1. *)
Theorem C31_camera_matrix_nan (k : PerspectiveParams F) q c :
  ((exists s, vz (translation (from_rotation_and_camcenter q c)) = B754_zero s) \/
   (exists sx sy sz, c = mkV3 (B754_zero sx) (B754_zero sy) (B754_zero sz))) ->
  p23 (as_camera_matrix (camera_new (perspective_from k) (from_rotation_and_camcenter q c))) = nan.
Proof. exact (C31_lemma prec emax Hp He fsin fcos k q c). Qed.

(** C48: ... and the Jacobian is NaN at every point. *)
Theorem C48_jacobian_nan (k : PerspectiveParams F) q c pt :
  ((exists s, vz (translation (from_rotation_and_camcenter q c)) = B754_zero s) \/
   (exists sx sy sz, c = mkV3 (B754_zero sx) (B754_zero sy) (B754_zero sz))) ->
  linearize_at (jacobian_cache_new (camera_new (perspective_from k) (from_rotation_and_camcenter q c))) pt
  = mkM23 nan nan nan nan nan nan.
Proof. exact (C48_lemma prec emax Hp He fsin fcos k q c pt). Qed.

End IEEE.
Print Assumptions C31_camera_matrix_nan.
Print Assumptions C48_jacobian_nan.

Section Cases.
Variables fsin fcos : f64 -> f64.
Local Hint Extern 0 (Ops f64) => exact (f64_ops fsin fcos) : typeclass_instances.
Local Notation one := (@o_one f64 (f64_ops fsin fcos)).
(** A camera at the origin with the identity rotation. *)
Definition ex_c0 : V3 f64 := mkV3 (B754_zero false) (B754_zero false) (B754_zero false).
Definition ex_q0 : Quat f64 := mkQuat (B754_zero false) (B754_zero false) (B754_zero false) one.
Example C31_case (k : PerspectiveParams f64) :
  p23 (as_camera_matrix (camera_new (perspective_from k) (from_rotation_and_camcenter ex_q0 ex_c0))) = B754_nan.
Proof. apply (C31_camera_matrix_nan 53 1024 f64_prec f64_emax fsin fcos). right. now exists false, false, false. Qed.
Example C48_case (k : PerspectiveParams f64) :
  j00 (linearize_at (jacobian_cache_new (camera_new (perspective_from k) (from_rotation_and_camcenter ex_q0 ex_c0)))
    (mkV3 one one one)) = B754_nan.
Proof.
  refine (f_equal j00 (C48_jacobian_nan 53 1024 f64_prec f64_emax fsin fcos k _ _ _ _)).
  right. now exists false, false, false.
Qed.
End Cases.

(** C48: the projection of such a camera has a derivative nevertheless. *)
Theorem C48_projection_differentiable k q (F : V3 R -> V2 R) p : unit_quat q ->
  (forall x, vz (mv (rotm q) x) <> 0 ->
     world_to_pixel (camera_new (perspective_from k) (from_rotation_and_camcenter q vO)) (mkPoints [x])
     = Some (mkPixels [F x])) ->
  vz (mv (rotm q) p) <> 0 ->
  exists ru rv, forall eps, 0 < eps -> exists delta, 0 < delta /\ forall o, vlen o < delta ->
     Rabs (px (F (vadd p o)) - px (F p) - vdot ru o) <= eps * vlen o /\
     Rabs (py (F (vadd p o)) - py (F p) - vdot rv o) <= eps * vlen o.
Proof. exact (C48b_lemma k q F p). Qed.
Print Assumptions C48_projection_differentiable.
