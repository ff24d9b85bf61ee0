(** * CamMatProofs.v - lemmas behind C30, C32-C37, C59, C60 *)

From Coq Require Import Reals List Lra Psatz Lia.
From Verif Require Import Scalar Linalg Householder Bundles Extrinsics Perspective Camera Linearize Spec Rows RealBase VecLemmas ExtrinsicsProofs FromViewProofs IntrinsicsProofs CameraProofs QRProofs.
Import ListNotations.
Local Open Scope R_scope.

(** ** The RQ decomposition *)
Definition P3 : M33 R := mkM33 0 0 1 0 1 0 1 0 0.
Lemma P3_sq : mm P3 P3 = mI. Proof. apply M33_eq; unfold P3; ru_spec; ring. Qed.
Lemma P3_tr : mtr P3 = P3. Proof. reflexivity. Qed.

Lemma rq_spec A : exists Rm Q, rq A = (Rm, Q) /\ orthogonal Q /\ mm Rm Q = A /\
  upper_triangular Rm /\ 0 <= m00 Rm /\ 0 <= m11 Rm /\ 0 <= m22 Rm.
Proof.
  unfold rq. tospec. cbn [o_zero o_one R_ops]. fold P3.
  destruct (qr_spec (mtr (mm P3 A))) as (OQ & (U1 & U2 & U3 & U4 & U5 & U6) & E).
  set (Qt := qr_q _) in *. set (Rt := qr_r _) in *. clearbody Qt Rt.
  do 2 eexists. split; [reflexivity|]. split; [|split; [|split]].
  - apply orthogonal_mm; [|now apply orthogonal_mtr]. apply sym_sq_orthogonal; [reflexivity|exact P3_sq].
  - rewrite <- !mm_assoc. rewrite (mm_assoc P3 P3), P3_sq, mm_I_l, <- mtr_mm, E, mtr_mtr, mm_assoc, P3_sq.
    apply mm_I_l.
  - destruct Rt as [a b c d e f g h i]; cbn [m00 m01 m02 m10 m11 m12 m20 m21 m22] in *. subst.
    repeat split; unfold P3; ru_spec; ring.
  - destruct Rt as [a b c d e f g h i]; cbn [m00 m01 m02 m10 m11 m12 m20 m21 m22] in *. subst.
    repeat split; unfold P3; ru_spec; lra.
Qed.

Lemma flip_signs_noop (k q : M33 R) : 0 <= m00 k -> 0 <= m11 k -> 0 <= m22 k -> flip_signs k q = Some (k, q).
Proof.
  intros A B C. unfold flip_signs.
  assert (N : forall x : R, 0 <= x -> o_ltb x o_zero = false).
  { intros x Hx. apply Rltb_false. cbn [o_zero R_ops]. lra. }
  destruct k as [a b c d e f g h i]; cbn [m00 m11 m22] in A, B, C.
  cbn [for_range fst snd m33_get m33_row v3_get bind m00 m01 m02 m10 m11 m12 m20 m21 m22 vx vy vz].
  rewrite (N a A). cbn [bind fst snd m11 m22]. rewrite (N e B). cbn [bind fst snd m11 m22].
  rewrite (N i C). reflexivity.
Qed.

Lemma mdet_neg m : mdet (m33_neg m) = - mdet m.
Proof. destruct m; ru; ring. Qed.
Lemma orthogonal_neg m : orthogonal m -> orthogonal (m33_neg m).
Proof.
  intros [A B]. split; [rewrite <- A|rewrite <- B]; destruct m; apply M33_eq; ru; ring.
Qed.
Lemma neg_neg a b : mm (m33_neg a) (m33_neg b) = mm a b.
Proof. destruct a, b; apply M33_eq; ru; ring. Qed.

(** All diagonal entries have one sign. *)
Definition same_sign (k : M33 R) : Prop :=
  (0 <= m00 k /\ 0 <= m11 k /\ 0 <= m22 k) \/ (m00 k <= 0 /\ m11 k <= 0 /\ m22 k <= 0).

Lemma rq_decomposition_spec A : exists q k,
  rq_decomposition A = Some (Ok (q, k)) /\ unit_quat q /\ mm k (rotm q) = A /\
  upper_triangular k /\ same_sign k.
Proof.
  unfold rq_decomposition. destruct (rq_spec A) as (Rm & Q & -> & O & E & (U1 & U2 & U3) & P1 & P2 & P3).
  rewrite flip_signs_noop by assumption. cbn [bind].
  assert (D : mdet Q = 1 \/ mdet Q = -1).
  { pose proof (orthogonal_det Q O) as D. assert ((mdet Q - 1) * (mdet Q + 1) = 0) by lra.
    apply Rmult_integral in H. lra. }
  rewrite !m33_det_R, mdet_neg. cbn [o_ltb R_ops].
  destruct (Rltb (- mdet Q) (mdet Q)) eqn:L.
  - apply Rltb_true in L. assert (RQ : is_rotation Q) by (split; [exact O|lra]).
    destruct (from_rotation_matrix_R Q RQ) as (UQ & RE).
    do 2 eexists. split; [reflexivity|]. rewrite RE. split; [exact UQ|]. split; [exact E|].
    split; [now repeat split|left; auto].
  - apply Rltb_false in L.
    assert (RQ : is_rotation (m33_neg Q)) by (split; [now apply orthogonal_neg|rewrite mdet_neg; lra]).
    destruct (from_rotation_matrix_R _ RQ) as (UQ & RE).
    do 2 eexists. split; [reflexivity|]. rewrite RE. split; [exact UQ|].
    split; [rewrite neg_neg; exact E|]. split; [|right]; repeat split; destruct Rm; ru; cbn in *; lra.
Qed.

Lemma C37_lemma A :
  (exists Rm Q, rq A = (Rm, Q) /\ upper_triangular Rm /\ 0 <= m00 Rm /\ 0 <= m11 Rm /\ 0 <= m22 Rm /\
     orthogonal Q /\ mm Rm Q = A /\ flip_signs Rm Q = Some (Rm, Q)) /\
  (exists q k, rq_decomposition A = Some (Ok (q, k)) /\ unit_quat q /\ is_rotation (rotm q) /\
     mm k (rotm q) = A /\ upper_triangular k /\
     ((0 <= m00 k /\ 0 <= m11 k /\ 0 <= m22 k) \/ (m00 k <= 0 /\ m11 k <= 0 /\ m22 k <= 0))).
Proof.
  split.
  - destruct (rq_spec A) as (Rm & Q & E & O & M & U & P1 & P2 & P3). exists Rm, Q.
    repeat (split; [assumption|]). now apply flip_signs_noop.
  - destruct (rq_decomposition_spec A) as (q & k & E & U & M & T & S). exists q, k.
    repeat (split; [assumption || now apply rotm_rotation|]). exact S.
Qed.

(** ** The center *)
Lemma center_R p : mdet (left33 p) <> 0 ->
  happly p (pmat2cam_center p) = vO.
Proof.
  intros H. unfold pmat2cam_center. rewrite !m33_det_R.
  destruct p; apply V3_eq; ru; field; intros Z; apply H; lra.
Qed.
Lemma mv_inj m a b : mdet m <> 0 -> mv m a = mv m b -> a = b.
Proof.
  intros D E. assert (K : forall v, vscl (/ mdet m) (mv (madj m) (mv m v)) = v).
  { intros v. rewrite <- mv_mm, madj_l, mv_mscl, mv_I, vscl_vscl, Rinv_l by exact D. apply vscl_1. }
  now rewrite <- (K a), <- (K b), E.
Qed.
Lemma C35_lemma p : mdet (left33 p) <> 0 ->
  happly p (pmat2cam_center p) = vO /\ (forall x, happly p x = vO -> x = pmat2cam_center p).
Proof.
  intros D. split; [now apply center_R|]. intros x E. apply (mv_inj (left33 p)); [exact D|].
  pose proof (center_R p D) as C. unfold happly in *.
  rewrite <- (vsub_vadd (mv _ x) (col4 p)), E, <- C. now rewrite vsub_vadd.
Qed.

(** ** from_perspective_matrix *)
Definition kp (k : PerspectiveParams R) : M33 R := kmat (pp_fx k) (pp_fy k) (pp_skew k) (pp_cx k) (pp_cy k).
Lemma upper_det k : upper_triangular k -> mdet k = m00 k * m11 k * m22 k.
Proof. destruct k; intros (A & B & C); cbn in A, B, C; subst; ru_spec; ring. Qed.

(** The factorization behind the camera returned. *)
Lemma from_perspective_spec p : mdet (left33 p) <> 0 -> exists k q s,
  from_perspective_matrix p
  = Some (Ok (camera_new (perspective_from k) (frc q (pmat2cam_center p)))) /\
  0 < pp_fx k /\ 0 < pp_fy k /\ unit_quat q /\ s <> 0 /\
  left33 p = mscl s (mm (kp k) (rotm q)).
Proof.
  intros D. unfold from_perspective_matrix.
  change (m34_remove_col3 p) with (left33 p).
  destruct (rq_decomposition_spec (left33 p)) as (q & k & -> & U & E & T & S).
  pose proof (upper_det k T) as DK.
  assert (DK0 : mdet k <> 0).
  { intros Z. apply D. rewrite <- E, mdet_mm, Z. ring. }
  rewrite DK in DK0.
  destruct k as [a b c d e f g h i]; cbn [m00 m01 m02 m10 m11 m12 m20 m21 m22] in *.
  destruct T as (T1 & T2 & T3); cbn [m10 m20 m21] in *; subst d g h.
  assert (a <> 0 /\ e <> 0 /\ i <> 0) as (A0 & E0 & I0) by (repeat split; intros ->; apply DK0; ring).
  do 3 eexists. split; [reflexivity|].
  destruct S as [(S1 & S2 & S3)|(S1 & S2 & S3)]; cbn [m00 m11 m22] in S1, S2, S3.
  - assert (0 < / i) by (apply Rinv_0_lt_compat; lra).
    split; [change (0 < a * (1 / i)); unfold Rdiv; nra|].
    split; [change (0 < e * (1 / i)); unfold Rdiv; nra|]. split; [exact U|]. split; [exact I0|].
    rewrite <- E, <- mm_mscl_l. f_equal. unfold kp. apply M33_eq; ru; field; exact I0.
  - assert (/ i < 0) by (apply Rinv_lt_0_compat; lra).
    split; [change (0 < a * (1 / i)); unfold Rdiv; nra|].
    split; [change (0 < e * (1 / i)); unfold Rdiv; nra|]. split; [exact U|]. split; [exact I0|].
    rewrite <- E, <- mm_mscl_l. f_equal. unfold kp. apply M33_eq; ru; field; exact I0.
Qed.

Lemma kp_pixel k y : vz y <> 0 ->
  persp_pixel k y = mkV2 (vx (mv (kp k) y) / vz (mv (kp k) y)) (vy (mv (kp k) y) / vz (mv (kp k) y)).
Proof. intros Z. destruct k, y; unfold persp_pixel, kp; apply V2_eq; ru_spec; cbn in *; field; lra. Qed.
Lemma kp_z k y : vz (mv (kp k) y) = vz y.
Proof. destruct y; unfold kp; ru_spec; ring. Qed.
Lemma hproject_scaled p k q c s x : s <> 0 ->
  happly p x = vscl s (mv (kp k) (to_camera q c x)) -> vz (happly p x) <> 0 ->
  vz (to_camera q c x) <> 0 /\ hproject p x = persp_pixel k (to_camera q c x).
Proof.
  intros S E Z. unfold hproject. rewrite E in *. cbn [vz vscl] in Z.
  unfold vscl in Z |- *. cbn [vx vy vz] in *. rewrite kp_z in Z.
  assert (Y : vz (to_camera q c x) <> 0) by (intros Y; apply Z; rewrite Y; ring).
  split; [exact Y|]. rewrite kp_pixel by exact Y. rewrite kp_z. f_equal; field; auto.
Qed.
Lemma world_to_pixel_persp k q c pts : unit_quat q ->
  Forall (fun x => vz (to_camera q c x) <> 0) pts ->
  world_to_pixel (camera_new (perspective_from k) (frc q c)) (mkPoints pts)
  = Some (mkPixels (map (fun x => persp_pixel k (to_camera q c x)) pts)).
Proof.
  intros U H. unfold world_to_pixel. cbn [camera_new cam_intrinsics cam_extrinsics].
  rewrite world_to_camera_R by exact U. cbn [bind].
  rewrite C13_lemma by now apply Forall_map. now rewrite map_map.
Qed.

Lemma center_decomp p m s c : left33 p = mscl s m -> happly p c = vO ->
  forall x, happly p x = vscl s (mv m (vsub x c)).
Proof.
  intros L C x. unfold happly in *. rewrite mv_vsub, vscl_vsub, <- !mv_mscl, <- L.
  assert (E : col4 p = vopp (mv (left33 p) c)).
  { rewrite <- (vsub_vadd (col4 p) (mv (left33 p) c)), (vadd_comm (col4 p)), C. vring. }
  rewrite E. generalize (mv (left33 p) x) (mv (left33 p) c). vring.
Qed.

Lemma C33_lemma p : mdet (left33 p) <> 0 -> exists k q c,
  from_perspective_matrix p = Some (Ok (camera_new (perspective_from k) (frc q c))) /\
  0 < pp_fx k /\ 0 < pp_fy k /\ unit_quat q /\
  (forall pts, Forall (fun x => vz (happly p x) <> 0) pts ->
     world_to_pixel (camera_new (perspective_from k) (frc q c)) (mkPoints pts)
     = Some (mkPixels (map (hproject p) pts))).
Proof.
  intros D. destruct (from_perspective_spec p D) as (k & q & s & E & A & B & U & S & L).
  exists k, q, (pmat2cam_center p). do 4 (split; [assumption|]). intros pts H.
  assert (G : forall x, vz (happly p x) <> 0 -> vz (to_camera q (pmat2cam_center p) x) <> 0 /\
            hproject p x = persp_pixel k (to_camera q (pmat2cam_center p) x)).
  { intros x Z. apply (hproject_scaled p k q _ s x S); [|exact Z].
    unfold to_camera. rewrite <- mv_mm. apply center_decomp; [exact L|now apply center_R]. }
  rewrite world_to_pixel_persp; [|exact U|].
  - do 2 f_equal. induction H as [|x l Z F IH]; [reflexivity|]. cbn [map].
    f_equal; [symmetry; now apply G|exact IH].
  - eapply Forall_impl; [|exact H]. intros x Z. now apply G.
Qed.

(** ** as_camera_matrix *)
Definition ref_matrix (k : PerspectiveParams R) q c : M34 R :=
  let tz := vz (to_camera q c vO) in
  hstack (mscl (/ tz) (mm (kp k) (rotm q))) (vscl (/ tz) (mv (kp k) (to_camera q c vO))).
Lemma raw_matrix k q c : unit_quat q ->
  m33_mul34 (as_intrinsics_matrix (perspective_from k)) (c_qt (e_cache (frc q c)))
  = hstack (mm (kp k) (rotm q)) (mv (kp k) (to_camera q c vO)).
Proof.
  intros U. unfold from_rotation_and_camcenter. cbn [c_qt e_cache]. rewrite rotmat_R by exact U.
  unfold to_camera. generalize (rotm q). intros r. destruct k, r, c. apply M34_eq; unfold kp; ru; ring.
Qed.
Lemma hstack_scaled m v : vz v <> 0 ->
  m34_div (if o_ltb (p00 (hstack m v)) o_zero then m34_neg (hstack m v) else hstack m v)
          (p23 (if o_ltb (p00 (hstack m v)) o_zero then m34_neg (hstack m v) else hstack m v))
  = hstack (mscl (/ vz v) m) (vscl (/ vz v) v).
Proof.
  intros Z. destruct (o_ltb _ _); destruct m, v as [a b c]; cbn [vz] in Z; apply M34_eq; ru; field; exact Z.
Qed.
Lemma tz_R q c : vz (mv (kp q) c) = vz c. Proof. apply kp_z. Qed.
Lemma as_camera_matrix_R k q c : unit_quat q -> vz (to_camera q c vO) <> 0 ->
  as_camera_matrix (camera_new (perspective_from k) (frc q c)) = ref_matrix k q c.
Proof.
  intros U Z. unfold as_camera_matrix. cbn [camera_new cam_intrinsics cam_extrinsics].
  rewrite raw_matrix by exact U. unfold ref_matrix. rewrite <- (kp_z k).
  apply hstack_scaled. now rewrite kp_z.
Qed.

Lemma C32_lemma k q c : unit_quat q ->
  let K := kmat (pp_fx k) (pp_fy k) (pp_skew k) (pp_cx k) (pp_cy k) in
  let t := vopp (mv (rotm q) c) in
  vz t <> 0 ->
  as_camera_matrix (camera_new (perspective_from k) (frc q c))
  = hstack (mscl (/ vz t) (mm K (rotm q))) (vscl (/ vz t) (mv K t)) /\
  jacobian_cache_new (camera_new (perspective_from k) (frc q c))
  = hstack (mscl (/ vz t) (mm K (rotm q))) (vscl (/ vz t) (mv K t)).
Proof.
  intros U K t Z.
  assert (E : t = to_camera q c vO) by (unfold t, to_camera; rewrite <- mv_vopp; f_equal; vring).
  rewrite E in *. split; exact (as_camera_matrix_R k q c U Z).
Qed.

Lemma ref_happly k q c x :
  happly (ref_matrix k q c) x = vscl (/ vz (to_camera q c vO)) (mv (kp k) (to_camera q c x)).
Proof.
  unfold ref_matrix. set (tz := vz _). clearbody tz.
  unfold to_camera, kp. generalize (rotm q). intros r. destruct k, r, c, x. apply V3_eq; ru_spec; ring.
Qed.
Lemma ref_p23 k q c : vz (to_camera q c vO) <> 0 -> p23 (ref_matrix k q c) = 1.
Proof.
  intros Z. unfold ref_matrix, hstack; cbn [p23]. unfold vscl at 1; cbn [vz]. rewrite kp_z. field. exact Z.
Qed.

Lemma C30_lemma k q c : unit_quat q -> vz (mv (rotm q) c) <> 0 ->
  let cam := camera_new (perspective_from k) (frc q c) in
  p23 (as_camera_matrix cam) = 1 /\
  (forall pts, Forall (fun x => vz (mv (rotm q) (vsub x c)) <> 0) pts ->
     world_to_pixel cam (mkPoints pts) = Some (mkPixels (map (hproject (as_camera_matrix cam)) pts))).
Proof.
  intros U Z cam.
  assert (Z' : vz (to_camera q c vO) <> 0).
  { intros E. apply Z. unfold to_camera in E. rewrite mv_vsub, mv_O in E.
    unfold vsub, vO in E; cbn [vz] in E. lra. }
  unfold cam. rewrite as_camera_matrix_R by assumption.
  split; [now apply ref_p23|]. intros pts H. rewrite world_to_pixel_persp by assumption.
  do 2 f_equal. induction H as [|x l X F IH]; [reflexivity|]. cbn [map]. f_equal; [symmetry|exact IH].
  apply (hproject_scaled _ k q c (/ vz (to_camera q c vO))); [now apply Rinv_neq_0_compat|apply ref_happly|].
  rewrite ref_happly. unfold vscl; cbn [vz]. rewrite kp_z.
  apply Rmult_integral_contrapositive_currified; [now apply Rinv_neq_0_compat|exact X].
Qed.

(** ** Uniqueness of the decomposition *)
Lemma mrotation_cancel a b : is_rotation b -> mm (mm a b) (mtr b) = a.
Proof. intros [[_ H] _]. now rewrite <- mm_assoc, H, mm_I_r. Qed.
Lemma mI_mdet s : mdet (mscl s mI) = s * s * s.
Proof. ru_spec; ring. Qed.
Lemma sq_eq_pos a b : 0 < a -> 0 < b -> a * a = b * b -> a = b.
Proof. intros A B E. assert ((a - b) * (a + b) = 0) by lra. apply Rmult_integral in H. lra. Qed.
Lemma kk_unique k k' u :
  0 < pp_fx k -> 0 < pp_fy k -> 0 < pp_fx k' -> 0 < pp_fy k' ->
  mm (kp k') (mtr (kp k')) = mscl (u * u) (mm (kp k) (mtr (kp k))) -> k' = k /\ u * u = 1.
Proof.
  intros A B A' B' G.
  destruct k as [fx fy sk cx cy], k' as [fx' fy' sk' cx' cy']; cbn [pp_fx pp_fy] in *.
  apply M33_inv in G. unfold kp in G. ru_spec. cbn [pp_fx pp_fy pp_skew pp_cx pp_cy] in G.
  destruct G as (G00 & G01 & G02 & _ & G11 & G12 & _ & _ & G22).
  assert (UU : u * u = 1) by lra. rewrite UU in *.
  assert (cy' = cy) by lra. assert (cx' = cx) by lra. subst.
  assert (fy' = fy) by (apply sq_eq_pos; lra). subst.
  assert (sk' = sk). { apply (Rmult_eq_reg_r fy); [|lra]. lra. } subst.
  assert (fx' = fx) by (apply sq_eq_pos; lra). subst. auto.
Qed.
Lemma rq_unique k k' r r' u :
  0 < pp_fx k -> 0 < pp_fy k -> 0 < pp_fx k' -> 0 < pp_fy k' -> is_rotation r -> is_rotation r' ->
  mm (kp k') r' = mscl u (mm (kp k) r) -> k' = k /\ r' = r /\ u = 1.
Proof.
  intros A B A' B' R1 R2 E.
  (* K' K'^T = u^2 K K^T *)
  assert (G : mm (kp k') (mtr (kp k')) = mscl (u * u) (mm (kp k) (mtr (kp k)))).
  { assert (L : forall m x, is_rotation x -> mm (mm m x) (mtr (mm m x)) = mm m (mtr m)).
    { intros m x Hx. now rewrite mtr_mm, mm_assoc, mrotation_cancel. }
    rewrite <- (L _ _ R2), E, <- (L (kp k) r R1).
    generalize (mm (kp k) r). intros m. destruct m; apply M33_eq; ru_spec; ring. }
  destruct (kk_unique k k' u A B A' B' G) as (-> & UU). clear G.
  assert (DK : mdet (kp k) <> 0).
  { replace (mdet (kp k)) with (pp_fx k * pp_fy k) by (unfold kp; ru_spec; ring).
    apply Rgt_not_eq. now apply Rmult_lt_0_compat. }
  assert (X : r' = mscl u r).
  { assert (H : mscl (/ mdet (kp k)) (mm (madj (kp k)) (mm (kp k) r')) = mscl u r).
    { rewrite E, mm_mscl_r, mm_assoc, madj_l, mm_mscl_l, mm_I_l, !mscl_mscl. f_equal. field. exact DK. }
    rewrite <- H, mm_assoc, madj_l, mm_mscl_l, mm_I_l, mscl_mscl, Rinv_l by exact DK. now rewrite mscl_1. }
  assert (U1 : u = 1).
  { destruct R1 as [_ D1], R2 as [_ D2]. rewrite X in D2.
    assert (D3 : mdet (mscl u r) = u * u * u * mdet r) by (destruct r; ru_spec; ring).
    rewrite D3, D1, UU in D2. lra. }
  split; [reflexivity|]. split; [|exact U1]. now rewrite X, U1, mscl_1.
Qed.
Lemma kp_det k : mdet (kp k) = pp_fx k * pp_fy k.
Proof. unfold kp; ru_spec; ring. Qed.
Lemma mdet_mscl s m : mdet (mscl s m) = s * s * s * mdet m.
Proof. destruct m; ru_spec; ring. Qed.
Lemma left33_ref k q c : left33 (ref_matrix k q c) = mscl (/ vz (to_camera q c vO)) (mm (kp k) (rotm q)).
Proof. reflexivity. Qed.

Lemma C34_lemma k q c : 0 < pp_fx k -> 0 < pp_fy k -> unit_quat q -> vz (mv (rotm q) c) <> 0 ->
  let cam := camera_new (perspective_from k) (frc q c) in
  exists q', from_perspective_matrix (as_camera_matrix cam)
             = Some (Ok (camera_new (perspective_from k) (frc q' c))) /\
    unit_quat q' /\ rotm q' = rotm q.
Proof.
  intros A B U Z cam.
  assert (Z' : vz (to_camera q c vO) <> 0).
  { intros E. apply Z. unfold to_camera in E. rewrite mv_vsub, mv_O in E.
    unfold vsub, vO in E; cbn [vz] in E. lra. }
  unfold cam. rewrite as_camera_matrix_R by assumption.
  set (s := / vz (to_camera q c vO)). assert (S : s <> 0) by now apply Rinv_neq_0_compat.
  assert (D : mdet (left33 (ref_matrix k q c)) <> 0).
  { rewrite left33_ref, mdet_mscl, mdet_mm, kp_det, rotm_det by exact U. fold s.
    rewrite Rmult_1_r. assert (0 < pp_fx k * pp_fy k) by now apply Rmult_lt_0_compat.
    repeat apply Rmult_integral_contrapositive_currified; lra. }
  destruct (from_perspective_spec _ D) as (k' & q' & s' & E & A' & B' & U' & S' & L).
  rewrite left33_ref in L. fold s in L.
  assert (M : mm (kp k') (rotm q') = mscl (s / s') (mm (kp k) (rotm q))).
  { replace (s / s') with (/ s' * s) by (field; exact S'). rewrite <- mscl_mscl, L, mscl_mscl, Rinv_l by exact S'.
    now rewrite mscl_1. }
  apply rq_unique in M; auto using rotm_rotation. destruct M as (-> & R & _).
  assert (C : pmat2cam_center (ref_matrix k q c) = c).
  { symmetry. apply C35_lemma; [exact D|]. rewrite ref_happly, to_camera_c, mv_O. apply vscl_O. }
  rewrite C in E. now exists q'.
Qed.

(** The other way round, and invariance under scaling of the matrix. *)
Lemma C59_lemma p : mdet (left33 p) <> 0 -> p23 p <> 0 -> exists cam,
  from_perspective_matrix p = Some (Ok cam) /\
  as_camera_matrix cam = hstack (mscl (/ p23 p) (left33 p)) (vscl (/ p23 p) (col4 p)).
Proof.
  intros D Z. destruct (from_perspective_spec p D) as (k & q & s & E & A & B & U & S & L).
  eexists. split; [exact E|]. set (c := pmat2cam_center p) in *.
  assert (H : forall x, happly p x = vscl s (mv (mm (kp k) (rotm q)) (vsub x c))).
  { apply center_decomp; [exact L|now apply center_R]. }
  assert (C4 : col4 p = vscl s (mv (kp k) (to_camera q c vO))).
  { unfold to_camera. rewrite <- mv_mm, <- H. unfold happly. now rewrite mv_O, vadd_0_l. }
  assert (T : p23 p = s * vz (to_camera q c vO)).
  { apply (f_equal vz) in C4. unfold col4, vscl in C4. cbn [vz] in C4. now rewrite kp_z in C4. }
  assert (Z' : vz (to_camera q c vO) <> 0) by (intros X; apply Z; rewrite T, X; ring).
  rewrite as_camera_matrix_R by assumption. unfold ref_matrix. rewrite L, C4, T, mscl_mscl, vscl_vscl.
  f_equal; f_equal; field; auto.
Qed.

Lemma C60_lemma p s : mdet (left33 p) <> 0 -> s <> 0 -> exists k q q' c,
  from_perspective_matrix p = Some (Ok (camera_new (perspective_from k) (frc q c))) /\
  from_perspective_matrix (hstack (mscl s (left33 p)) (vscl s (col4 p)))
  = Some (Ok (camera_new (perspective_from k) (frc q' c))) /\
  unit_quat q /\ unit_quat q' /\ rotm q' = rotm q.
Proof.
  intros D S. set (p' := hstack _ _).
  assert (L' : left33 p' = mscl s (left33 p)) by (destruct p; reflexivity).
  assert (D' : mdet (left33 p') <> 0).
  { rewrite L', mdet_mscl. repeat apply Rmult_integral_contrapositive_currified; auto. }
  destruct (from_perspective_spec p D) as (k & q & t & E & A & B & U & T & L).
  destruct (from_perspective_spec p' D') as (k' & q' & t' & E' & A' & B' & U' & T' & M).
  rewrite L', L, mscl_mscl in M.
  assert (N : mm (kp k') (rotm q') = mscl (s * t / t') (mm (kp k) (rotm q))).
  { replace (s * t / t') with (/ t' * (s * t)) by (field; exact T').
    rewrite <- mscl_mscl, M, mscl_mscl, Rinv_l by exact T'. now rewrite mscl_1. }
  apply rq_unique in N; auto using rotm_rotation. destruct N as (-> & R & _).
  assert (C : pmat2cam_center p' = pmat2cam_center p).
  { symmetry. apply C35_lemma; [exact D'|].
    replace (happly p' (pmat2cam_center p)) with (vscl s (happly p (pmat2cam_center p))).
    - rewrite center_R by exact D. apply vscl_O.
    - generalize (pmat2cam_center p). intros x. destruct p, x; apply V3_eq; unfold p'; ru_spec; ring. }
  rewrite C in E'. now exists k, q, q', (pmat2cam_center p).
Qed.

(** ** No error is ever returned *)
Lemma flip_signs_total {T} {O : Ops T} (k q : M33 T) : exists st, flip_signs k q = Some st.
Proof.
  unfold flip_signs.
  assert (G : forall (body : nat -> M33 T * M33 T -> option (M33 T * M33 T)),
    (forall i st, (i < 3)%nat -> exists st', body i st = Some st') ->
    forall n start st, (start + n <= 3)%nat -> exists st', for_range start n body st = Some st').
  { intros body H. induction n as [|n IH]; intros start st L; cbn [for_range]; [now exists st|].
    destruct (H start st) as (st1 & ->); [lia|]. cbn [bind]. apply IH. lia. }
  apply G; [|lia]. intros i [a b] Hi. cbn [fst snd].
  assert (Get : forall (m : M33 T) i j, (i < 3)%nat -> (j < 3)%nat -> exists x, m33_get m i j = Some x).
  { intros m i' j' Hi' Hj'. destruct i' as [|[|[|]]]; try lia; destruct j' as [|[|[|]]]; try lia; now eexists. }
  assert (Set' : forall (m : M33 T) i j t, (i < 3)%nat -> (j < 3)%nat -> exists x, m33_set m i j t = Some x).
  { intros m i' j' t Hi' Hj'. destruct i' as [|[|[|]]]; try lia; destruct j' as [|[|[|]]]; try lia; now eexists. }
  destruct (Get a i i Hi Hi) as (d & ->). cbn [bind]. destruct (o_ltb d o_zero); [|now eexists].
  apply G; [|lia]. intros j [a' b'] Hj. cbn [fst snd].
  destruct (Get a' j i Hj Hi) as (x & ->). cbn [bind].
  destruct (Set' a' j i (o_neg x) Hj Hi) as (a2 & ->). cbn [bind].
  destruct (Get b' i j Hi Hj) as (y & ->). cbn [bind].
  destruct (Set' b' i j (o_neg y) Hi Hj) as (b2 & ->). cbn [bind]. now eexists.
Qed.
Lemma C36_lemma {T} {O : Ops T} (p : M34 T) : exists cam, from_perspective_matrix p = Some (Ok cam).
Proof.
  unfold from_perspective_matrix, rq_decomposition. destruct (rq _) as [k q].
  destruct (flip_signs_total k q) as ([k' q'] & ->). cbn [bind].
  destruct (o_ltb _ _); cbn [bind]; now eexists.
Qed.
