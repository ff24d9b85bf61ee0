(** * FloatViewProofs.v - rounding errors of unit vectors, cross products and look-at frames (C97) *)

From Coq Require Import ZArith Reals List Bool Lra Lia Psatz.
From Flocq Require Import Core BinarySingleNaN.
From Verif Require Import Scalar Linalg Bundles Extrinsics Rows Spec SpecFloatErr RealBase VecLemmas JacProofs FloatBase FloatRound FloatErrProofs FloatApprox FloatDirProofs FloatRigidProofs FloatIsectProofs4 ExtrinsicsProofs FromViewProofs.
Import ListNotations.
Local Open Scope R_scope.

(** ** Distances of real vectors *)
Lemma vdist_0 a : vdist a a = 0.
Proof. unfold vdist. now rewrite vsub_diag, vlen_O. Qed.
Lemma vdist_triangle a b c : vdist a c <= vdist a b + vdist b c.
Proof. unfold vdist. replace (vsub a c) with (vadd (vsub a b) (vsub b c)) by vring. apply vlen_triangle. Qed.
Lemma vdist_sym a b : vdist a b = vdist b a.
Proof. unfold vdist. replace (vsub a b) with (vscl (-1) (vsub b a)) by vring. rewrite vlen_vscl, Rabs_left by lra. ring. Qed.
Lemma vdist_nonneg a b : 0 <= vdist a b. Proof. apply vlen_nonneg. Qed.
Lemma vdist_len a b : vlen b - vdist a b <= vlen a <= vlen b + vdist a b.
Proof.
  split.
  - pose proof (vlen_triangle a (vsub b a)) as H. replace (vadd a (vsub b a)) with b in H by vring. fold (vdist b a) in H. rewrite vdist_sym in H. lra.
  - pose proof (vlen_triangle b (vsub a b)) as H. replace (vadd b (vsub a b)) with a in H by vring. fold (vdist a b) in H. lra.
Qed.
Lemma vlen_vcross a b : vlen (vcross a b) <= vlen a * vlen b.
Proof.
  pose proof (vlen_nonneg a). pose proof (vlen_nonneg b). pose proof (vlen_nonneg (vcross a b)).
  pose proof (vlen_sq (vcross a b)) as S. rewrite lagrange, <- !vlen_sq in S.
  assert (0 <= vlen a * vlen b) by nra. nra.
Qed.
Lemma vcross_dist a b a' b' : vdist (vcross a b) (vcross a' b') <= vdist a a' * vlen b + vlen a' * vdist b b'.
Proof.
  unfold vdist at 1. replace (vsub (vcross a b) (vcross a' b')) with (vadd (vcross (vsub a a') b) (vcross a' (vsub b b'))) by vring.
  eapply Rle_trans; [apply vlen_triangle|]. apply Rplus_le_compat; apply vlen_vcross.
Qed.
(** normalizing shrinks distances *)
Lemma vunit_dist a b e : b <> vO -> 0 <= e <= 1/50 -> vdist a b <= e * vlen b -> vdist (vunit a) (vunit b) <= 1.011 * e.
Proof.
  intros B E D. pose proof (vlen_pos b B) as LB. destruct (vdist_len a b) as (L1 & _).
  assert (LA : (1 - e) * vlen b <= vlen a) by lra.
  assert (A : a <> vO). { intros ->. rewrite vlen_O in LA. nra. }
  pose proof (vlen_pos a A) as LA0.
  assert (K : vdist (vunit a) (vunit b) * vdist (vunit a) (vunit b) * (vlen a * vlen b) <= vdist a b * vdist a b).
  { unfold vdist. rewrite !vlen_sq. set (la := vlen a) in *. set (lb := vlen b) in *.
    replace (vdot (vsub a b) (vsub a b)) with (vdot a a + vdot b b - 2 * vdot a b) by vring.
    replace (vdot (vsub (vunit a) (vunit b)) (vsub (vunit a) (vunit b))) with (vdot (vunit a) (vunit a) + vdot (vunit b) (vunit b) - 2 * vdot (vunit a) (vunit b)) by vring.
    rewrite (vunit_dot a A), (vunit_dot b B). unfold vunit. rewrite vdot_vscl_l, vdot_vscl_r. fold la lb.
    replace ((1 + 1 - 2 * (/ la * (/ lb * vdot a b))) * (la * lb)) with (2 * (la * lb) - 2 * vdot a b) by (field; lra).
    rewrite <- !vlen_sq. fold la lb. clearbody la lb. pose proof (sq_nn (la - lb)). lra. }
  set (x := vdist (vunit a) (vunit b)) in *. pose proof (vdist_nonneg (vunit a) (vunit b)) as X0. fold x in X0.
  pose proof (vdist_nonneg a b) as D0.
  assert (Q : x * x * ((1 - e) * (vlen b * vlen b)) <= e * e * (vlen b * vlen b)).
  { apply Rle_trans with (vdist a b * vdist a b); [|nra]. eapply Rle_trans; [|exact K]. apply Rmult_le_compat_l; [nra|]. nra. }
  assert (LB2 : 0 < vlen b * vlen b) by nra.
  assert (Q' : x * x * (1 - e) <= e * e). { apply Rmult_le_reg_r with (vlen b * vlen b); [exact LB2|]. lra. }
  apply Rsqr_incr_0_var; [|lra]. unfold Rsqr. nra.
Qed.
Lemma comps_dist a b e : Rabs (vx a - vx b) <= e -> Rabs (vy a - vy b) <= e -> Rabs (vz a - vz b) <= e -> vdist a b <= 1.7321 * e.
Proof.
  intros X Y Z. pose proof (Rabs_pos (vx a - vx b)) as P. assert (E0 : 0 <= e) by lra. apply abs_sq in X, Y, Z.
  apply Rsqr_incr_0_var; [|lra]. unfold Rsqr, vdist. rewrite vlen_sq. unfold vdot, vsub. cbn. nra.
Qed.
Lemma dist_comps a b e : vdist a b <= e -> Rabs (vx a - vx b) <= e /\ Rabs (vy a - vy b) <= e /\ Rabs (vz a - vz b) <= e.
Proof. intros D. destruct (comp_le (vsub a b)) as (X & Y & Z). fold (vdist a b) in X, Y, Z. set (l := vdist a b) in *. unfold vsub in X, Y, Z. cbn [vx vy vz] in X, Y, Z. repeat split; lra. Qed.

(** ** Quaternions of a rotation matrix, one for each diagonal sum which is positive *)
Definition qb0 (m : M33 R) := let n := sqrt (m00 m + m11 m + m22 m + 1) * 2 in
  mkQuat ((m21 m - m12 m) / n) ((m02 m - m20 m) / n) ((m10 m - m01 m) / n) (/ 4 * n).
Definition qb1 (m : M33 R) := let n := sqrt (1 + m00 m - m11 m - m22 m) * 2 in
  mkQuat (/ 4 * n) ((m01 m + m10 m) / n) ((m02 m + m20 m) / n) ((m21 m - m12 m) / n).
Definition qb2 (m : M33 R) := let n := sqrt (1 + m11 m - m00 m - m22 m) * 2 in
  mkQuat ((m01 m + m10 m) / n) (/ 4 * n) ((m12 m + m21 m) / n) ((m02 m - m20 m) / n).
Definition qb3 (m : M33 R) := let n := sqrt (1 + m22 m - m00 m - m11 m) * 2 in
  mkQuat ((m02 m + m20 m) / n) ((m12 m + m21 m) / n) (/ 4 * n) ((m10 m - m01 m) / n).
Local Ltac qb D := apply products_rotm; cbn [qi qj qk qw m00 m01 m02 m10 m11 m12 m20 m21 m22];
    first [rewrite (pivot_pp _ D); lra | rewrite (pivot_pl _ _ D); lra | rewrite (pivot_lp _ _ D); lra
          | apply (pivot_ll _ _ _ _ D); lra].
Lemma qb0_R m : is_rotation m -> 0 < m00 m + m11 m + m22 m + 1 -> unit_quat (qb0 m) /\ rotm (qb0 m) = m.
Proof. intros H D. apply rotation_ids in H. destruct H. destruct m as [a b c d e f g h i]. unfold qb0. cbn [m00 m01 m02 m10 m11 m12 m20 m21 m22] in *. qb D. Qed.
Lemma qb1_R m : is_rotation m -> 0 < 1 + m00 m - m11 m - m22 m -> unit_quat (qb1 m) /\ rotm (qb1 m) = m.
Proof. intros H D. apply rotation_ids in H. destruct H. destruct m as [a b c d e f g h i]. unfold qb1. cbn [m00 m01 m02 m10 m11 m12 m20 m21 m22] in *. qb D. Qed.
Lemma qb2_R m : is_rotation m -> 0 < 1 + m11 m - m00 m - m22 m -> unit_quat (qb2 m) /\ rotm (qb2 m) = m.
Proof. intros H D. apply rotation_ids in H. destruct H. destruct m as [a b c d e f g h i]. unfold qb2. cbn [m00 m01 m02 m10 m11 m12 m20 m21 m22] in *. qb D. Qed.
Lemma qb3_R m : is_rotation m -> 0 < 1 + m22 m - m00 m - m11 m -> unit_quat (qb3 m) /\ rotm (qb3 m) = m.
Proof. intros H D. apply rotation_ids in H. destruct H. destruct m as [a b c d e f g h i]. unfold qb3. cbn [m00 m01 m02 m10 m11 m12 m20 m21 m22] in *. qb D. Qed.
Lemma unit_quat_comps q : unit_quat q -> Rabs (qi q) <= 1 /\ Rabs (qj q) <= 1 /\ Rabs (qk q) <= 1 /\ Rabs (qw q) <= 1.
Proof. unfold unit_quat, qnorm2. intros H. repeat split; apply Rabs_le; nra. Qed.
Lemma rotation_entries m : is_rotation m -> Rabs (m00 m) <= 1 /\ Rabs (m01 m) <= 1 /\ Rabs (m02 m) <= 1 /\
  Rabs (m10 m) <= 1 /\ Rabs (m11 m) <= 1 /\ Rabs (m12 m) <= 1 /\ Rabs (m20 m) <= 1 /\ Rabs (m21 m) <= 1 /\ Rabs (m22 m) <= 1.
Proof.
  intros H. apply rotation_ids in H. destruct H as [A B C _ _ _ _ _ _ _ _ _ _ _ _ _ _ _ _ _ _].
  repeat split; apply Rabs_le; nra.
Qed.

(** ** The exact camera: half a turn about the view direction, then into the frame *)
Lemma half_turn z : q_from_axis_angle z PI = mkQuat (vx z) (vy z) (vz z) 0.
Proof. unfold q_from_axis_angle. rewrite o_two_R. cbn [o_mul o_sin o_cos o_div R_ops]. rewrite sin_PI2, cos_PI2, !Rmult_1_r. reflexivity. Qed.
Definition frame_matrix (z up : V3 R) : M33 R :=
  mkM33 (vx (fx_axis z up)) (vx (fy_axis z up)) (vx z)
        (vy (fx_axis z up)) (vy (fy_axis z up)) (vy z)
        (vz (fx_axis z up)) (vz (fy_axis z up)) (vz z).
Lemma frame_matrix_R z up : vdot z z = 1 -> vcross up z <> vO -> is_rotation (frame_matrix z up).
Proof.
  intros Hz Hc. destruct (face_towards_R z up Hz Hc) as (Rm & C0 & C1 & C2).
  replace (frame_matrix z up) with (rot_face_towards z up); [exact Rm|].
  clear Rm. set (m := rot_face_towards z up) in *. clearbody m. unfold frame_matrix. rewrite <- C0, <- C1, <- C2. now destruct m.
Qed.
Lemma view_quat_R z up q1 : vdot z z = 1 -> vcross up z <> vO -> unit_quat q1 -> rotm q1 = frame_matrix z up ->
  let q := q_mul (q_inverse q1) (mkQuat (vx z) (vy z) (vz z) 0) in
  unit_quat q /\ mv (mtr (rotm q)) (mkV3 0 0 1) = z /\ mv (mtr (rotm q)) (mkV3 1 0 0) = vopp (fx_axis z up) /\
  mv (mtr (rotm q)) (mkV3 0 (-1) 0) = fy_axis z up.
Proof.
  intros Hz Hc U1 E1 q. unfold q. rewrite <- half_turn. assert (U2 := axis_angle_unit z PI Hz). assert (U1' := unit_quat_inverse _ U1).
  split; [now apply unit_quat_mul|]. rewrite rotm_mul by assumption. rewrite mtr_mm, rotm_inverse, mtr_mtr, E1.
  set (m := frame_matrix z up).
  pose proof (frame_dots z up Hz Hc) as (XX & YY & _ & XY & XZ & YZ & XxY).
  replace (mv (mm (mtr (rotm (q_from_axis_angle z PI))) m) (mkV3 0 0 1))
    with (mv (mtr (rotm (q_from_axis_angle z PI))) (mcol2 m)) by (rewrite mv_mm; f_equal; vring).
  replace (mv (mm (mtr (rotm (q_from_axis_angle z PI))) m) (mkV3 1 0 0))
    with (mv (mtr (rotm (q_from_axis_angle z PI))) (mcol0 m)) by (rewrite mv_mm; f_equal; vring).
  replace (mv (mm (mtr (rotm (q_from_axis_angle z PI))) m) (mkV3 0 (-1) 0))
    with (vopp (mv (mtr (rotm (q_from_axis_angle z PI))) (mcol1 m))) by (rewrite mv_mm, <- mv_vopp; f_equal; vring).
  assert (C0 : mcol0 m = fx_axis z up) by (unfold mcol0, m, frame_matrix; cbn; now destruct (fx_axis z up)).
  assert (C1 : mcol1 m = fy_axis z up) by (unfold mcol1, m, frame_matrix; cbn; now destruct (fy_axis z up)).
  assert (C2 : mcol2 m = z) by (unfold mcol2, m, frame_matrix; cbn; now destruct z).
  rewrite C0, C1, C2. split; [now apply axis_angle_fix|]. split.
  - rewrite axis_angle_inv; auto; [|now rewrite vdot_comm]. rewrite cos_PI, sin_PI. vring.
  - rewrite axis_angle_inv; auto; [|now rewrite vdot_comm]. rewrite cos_PI, sin_PI. vring.
Qed.

Section View.
Variables (prec emax : Z) (Hp : Prec_gt_0 prec) (He : Prec_lt_emax prec emax).
Variables fsin fcos : binary_float prec emax -> binary_float prec emax.
Local Notation F := (binary_float prec emax).
Local Hint Extern 0 (Ops (binary_float prec emax)) =>
  exact (B_ops prec emax Hp He fsin fcos) : typeclass_instances.
Local Notation u := (bpow radix2 (- prec)).
Local Notation big := (bpow radix2 emax).
Local Notation tiny := (bpow radix2 (2 - emax)).
Local Notation flr := (fl prec emax).
Local Instance fexp_valid : Valid_exp (SpecFloat.fexp prec emax) := fexp_correct prec emax Hp.
Hypotheses (P14 : (14 <= prec)%Z) (E17 : (17 <= emax)%Z).
Local Notation tiny1 := (tiny_le_1 emax E17).
Lemma u14 : u <= / 16384.
Proof. apply Rle_trans with (bpow radix2 (-14)); [apply bpow_le; lia|]. simpl. lra. Qed.
Lemma u0 : 0 < u. Proof. apply bpow_gt_0. Qed.

(** the vector [v] is finite and at distance at most [e] from [w] *)
Definition vnear (e : R) (v : V3 F) (w : V3 R) : Prop := vec_finite v /\ vdist (vreal v) w <= e.
Lemma vnear_weak e e' v w : vnear e v w -> e <= e' -> vnear e' v w.
Proof. intros (A & B) L. split; [exact A|lra]. Qed.
Lemma vnear_len e v w : vnear e v w -> vlen w - e <= vlen (vreal v) <= vlen w + e.
Proof. intros (A & B). destruct (vdist_len (vreal v) w). split; lra. Qed.
Lemma vnear_comps e v w : vnear e v w -> near e (vx v) (vx w) /\ near e (vy v) (vy w) /\ near e (vz v) (vz w).
Proof. intros ((A & B & C) & D). apply dist_comps in D. destruct D as (X & Y & Z). repeat split; assumption. Qed.

(** differences *)
Lemma sub_vnear (a b : V3 F) L : vec_finite a -> vec_finite b -> L = vlen (vsub (vreal a) (vreal b)) -> tiny <= L -> 4 * L < big ->
  vnear (1.74 * u * L) (v3_sub a b) (vsub (vreal a) (vreal b)).
Proof.
  intros (A1 & A2 & A3) (B1 & B2 & B3) EL T B. pose proof u0. pose proof u14.
  destruct (comp_le (vsub (vreal a) (vreal b))) as (X & Y & Z). rewrite <- EL in X, Y, Z. cbn in X, Y, Z.
  apply fl_finite in A1, A2, A3, B1, B2, B3.
  assert (L0 : 0 < L) by (apply Rlt_le_trans with (2 := T), bpow_gt_0).
  destruct (sub_err prec emax Hp He fsin fcos _ _ _ _ L A1 B1 T X) as (x & (X1 & X2) & DX & _); [nra|].
  destruct (sub_err prec emax Hp He fsin fcos _ _ _ _ L A2 B2 T Y) as (y & (Y1 & Y2) & DY & _); [nra|].
  destruct (sub_err prec emax Hp He fsin fcos _ _ _ _ L A3 B3 T Z) as (z & (Z1 & Z2) & DZ & _); [nra|].
  split; [repeat split; assumption|].
  eapply Rle_trans; [apply comps_dist with (e := u * L)|nra]; unfold v3_sub, vreal; cbn [vx vy vz vsub]; rewrite ?X2, ?Y2, ?Z2; assumption.
Qed.
(** unit vectors *)
Lemma normalize_vnear (v : V3 F) w e E : (0 <= E)%Z -> (2 * E + 4 <= emax)%Z -> w <> vO -> 0 <= e <= 1/50 ->
  vnear (e * vlen w) v w -> bpow radix2 (- E) <= 0.98 * vlen w -> 1.02 * vlen w <= bpow radix2 E ->
  vnear (1.011 * e + 8.7 * u) (v3_normalize v) (vunit w).
Proof.
  intros E0 E2 W Ee N LO HI. pose proof u0. pose proof u14. pose proof (vnear_len _ _ _ N) as (L1 & L2). destruct N as (Fv & D).
  pose proof (vlen_pos w W) as LW.
  destruct (normalize_app prec emax Hp He fsin fcos ltac:(lia) E E0 E2 v Fv) as (X & Y & Z); [nra|].
  destruct X as (x & (X1 & X2) & DX & _), Y as (y & (Y1 & Y2) & DY & _), Z as (z & (Z1 & Z2) & DZ & _).
  split; [repeat split; assumption|].
  eapply Rle_trans; [apply vdist_triangle with (b := vunit (vreal v))|].
  pose proof (vunit_dist (vreal v) w e W Ee D) as Q.
  assert (R : vdist (vreal (v3_normalize v)) (vunit (vreal v)) <= 1.7321 * (5.02 * u)).
  { apply comps_dist; cbn [vreal vx vy vz]; [rewrite X2|rewrite Y2|rewrite Z2]; lra. }
  lra.
Qed.
(** cross products *)
Lemma cross_vnear (a b : V3 F) W : vec_finite a -> vec_finite b -> vlen (vreal a) * vlen (vreal b) <= W -> tiny <= W -> 8 * W < big ->
  vnear (5.3 * u * W) (v3_cross a b) (vcross (vreal a) (vreal b)).
Proof.
  intros (A1 & A2 & A3) (B1 & B2 & B3) AB T B. pose proof u0 as U0. pose proof u14 as U1.
  destruct (comp_le (vreal a)) as (X & Y & Z). destruct (comp_le (vreal b)) as (X' & Y' & Z'). cbn [vreal vx vy vz] in *.
  destruct (comp_le (vcross (vreal a) (vreal b))) as (CX & CY & CZ). pose proof (vlen_vcross (vreal a) (vreal b)) as CC.
  set (lc := vlen (vcross (vreal a) (vreal b))) in *. unfold vcross, vreal in CX, CY, CZ. cbn [vx vy vz] in CX, CY, CZ.
  set (la := vlen (vreal a)) in *. set (lb := vlen (vreal b)) in *.
  assert (L0 : 0 < W) by (apply Rlt_le_trans with (2 := T), bpow_gt_0).
  assert (G : forall x1 y1 x2 y2 : F, is_finite x1 = true -> is_finite y1 = true -> is_finite x2 = true -> is_finite y2 = true ->
     Rabs (B2R x1) <= la -> Rabs (B2R y1) <= lb -> Rabs (B2R x2) <= la -> Rabs (B2R y2) <= lb ->
     Rabs (B2R x1 * B2R y1 - B2R x2 * B2R y2) <= W ->
     near (3.01 * (u * W)) (o_sub (o_mul x1 y1) (o_mul x2 y2)) (B2R x1 * B2R y1 - B2R x2 * B2R y2)).
  { intros x1 y1 x2 y2 F1 F2 F3 F4 L1 L2 L3 L4 LW. apply fl_finite in F1, F2, F3, F4.
    assert (P1 : Rabs (B2R x1 * B2R y1) <= W).
    { rewrite Rabs_mult. eapply Rle_trans; [|exact AB]. apply Rmult_le_compat; try apply Rabs_pos; assumption. }
    assert (P2 : Rabs (B2R x2 * B2R y2) <= W).
    { rewrite Rabs_mult. eapply Rle_trans; [|exact AB]. apply Rmult_le_compat; try apply Rabs_pos; assumption. }
    destruct (mul_err prec emax Hp He fsin fcos _ _ _ _ W F1 F2 T P1) as (r1 & R1 & D1 & _); [nra|].
    destruct (mul_err prec emax Hp He fsin fcos _ _ _ _ W F3 F4 T P2) as (r2 & R2 & D2 & _); [nra|].
    assert (DD : Rabs (r1 - r2 - (B2R x1 * B2R y1 - B2R x2 * B2R y2)) <= 2 * (u * W)).
    { replace (r1 - r2 - (B2R x1 * B2R y1 - B2R x2 * B2R y2)) with ((r1 - B2R x1 * B2R y1) + - (r2 - B2R x2 * B2R y2)) by ring.
      replace (2 * (u * W)) with (u * W + u * W) by ring. apply tri; [exact D1|now rewrite Rabs_Ropp]. }
    assert (uW : 0 < u * W <= W / 16384) by nra.
    destruct (sub_err prec emax Hp He fsin fcos _ _ _ _ (1.001 * W) R1 R2) as (r & (R & R') & D & _); [lra| |nra|].
    { replace (r1 - r2) with ((r1 - r2 - (B2R x1 * B2R y1 - B2R x2 * B2R y2)) + (B2R x1 * B2R y1 - B2R x2 * B2R y2)) by ring.
      eapply Rle_trans; [apply tri; eassumption|]. lra. }
    split; [exact R|]. rewrite R'. replace (r - (B2R x1 * B2R y1 - B2R x2 * B2R y2)) with ((r - (r1 - r2)) + (r1 - r2 - (B2R x1 * B2R y1 - B2R x2 * B2R y2))) by ring.
    eapply Rle_trans; [apply tri; eassumption|]. lra. }
  unfold v3_cross. 
  destruct (G (vy a) (vz b) (vz a) (vy b)) as (FX & DX); try assumption; [lra|].
  destruct (G (vz a) (vx b) (vx a) (vz b)) as (FY & DY); try assumption; [lra|].
  destruct (G (vx a) (vy b) (vy a) (vx b)) as (FZ & DZ); try assumption; [lra|].
  split; [repeat split; assumption|].
  eapply Rle_trans; [apply comps_dist with (e := 3.01 * (u * W)); unfold vcross, vreal; cbn [vx vy vz]; assumption|]. nra.
Qed.

(** ** The axes of the look-at frame *)
Definition mat_near (e : R) (m : M33 F) (w : M33 R) : Prop :=
  near e (m00 m) (m00 w) /\ near e (m01 m) (m01 w) /\ near e (m02 m) (m02 w) /\
  near e (m10 m) (m10 w) /\ near e (m11 m) (m11 w) /\ near e (m12 m) (m12 w) /\
  near e (m20 m) (m20 w) /\ near e (m21 m) (m21 w) /\ near e (m22 m) (m22 w).
Variables (E : Z) (s d : R).
Hypotheses (E1 : (1 <= E)%Z) (E2 : (2 * E + 4 <= emax)%Z) (D0 : u <= d) (DS : u <= d * s) (D14 : d <= / 16384) (S0 : 0 < s)
  (SE : bpow radix2 (- E) <= 0.98 * s).
Lemma half_E : bpow radix2 (- E) <= / 2.
Proof. apply Rle_trans with (bpow radix2 (-1)); [apply bpow_le; lia|]. simpl. lra. Qed.
Lemma two_E : 2 <= bpow radix2 E.
Proof. apply Rle_trans with (bpow radix2 1); [simpl; lra|apply bpow_le; lia]. Qed.
Lemma big64 : 64 < big.
Proof. apply Rle_lt_trans with (bpow radix2 6); [simpl; lra|apply bpow_lt; lia]. Qed.
Lemma face_near (z1 up : V3 F) z : vdot z z = 1 -> vnear (10.5 * u) z1 z -> vec_finite up -> vlen (vreal up) <= 1.01 ->
  s <= vlen (vcross (vreal up) z) ->
  mat_near (69 * d) (rot_face_towards z1 up)
    (mkM33 (vx (fx_axis z (vreal up))) (vx (fy_axis z (vreal up))) (vx z)
           (vy (fx_axis z (vreal up))) (vy (fy_axis z (vreal up))) (vy z)
           (vz (fx_axis z (vreal up))) (vz (fy_axis z (vreal up))) (vz z)).
Proof.
  intros Z N Fu Lu Su. pose proof u0 as U0. pose proof u14 as U1. pose proof half_E as HE. pose proof two_E as TE. pose proof big64 as BB.
  assert (LZ : vlen z = 1) by (unfold vlen; rewrite Z; apply sqrt_1).
  assert (ZO : z <> vO) by (intros ->; rewrite vlen_O in LZ; lra).
  set (w := vcross (vreal up) z) in *.
  assert (WO : w <> vO) by (intros EW; rewrite EW, vlen_O in Su; lra).
  destruct (frame_dots z (vreal up) Z WO) as (XX & YY & _ & XY & XZ & YZ & _).
  set (x := fx_axis z (vreal up)) in *. set (y := fy_axis z (vreal up)) in *.
  assert (LX : vlen x = 1) by (unfold vlen; rewrite XX; apply sqrt_1).
  assert (LY : vlen y = 1) by (unfold vlen; rewrite YY; apply sqrt_1).
  assert (YO : y <> vO) by (intros EY; rewrite EY, vlen_O in LY; lra).
  unfold rot_face_towards. set (z2 := v3_normalize z1).
  assert (N2 : vnear (19.4 * u) z2 z).
  { rewrite <- (vunit_id z Z). eapply vnear_weak; [apply (normalize_vnear z1 z (10.5 * u) E); try lia; try assumption; rewrite ?LZ; try lra|lra].
    rewrite Rmult_1_r. exact N. }
  pose proof (vnear_len _ _ _ N2) as L2. rewrite LZ in L2.
  set (c1 := v3_cross up z2).
  assert (C1 : vnear (25 * u) c1 w).
  { destruct (cross_vnear up z2 1.02) as (Fc & Dc); [assumption|apply N2| | | |].
    - pose proof (vlen_nonneg (vreal up)). pose proof (vlen_nonneg (vreal z2)). nra.
    - pose proof tiny1 as T1. lra.
    - lra.
    - split; [exact Fc|]. eapply Rle_trans; [apply vdist_triangle with (b := vcross (vreal up) (vreal z2))|].
      pose proof (vcross_dist (vreal up) (vreal z2) (vreal up) z) as Q. rewrite vdist_0 in Q. destruct N2 as (_ & N2).
      pose proof (vlen_nonneg (vreal up)). pose proof (vdist_nonneg (vreal z2) z). fold w in Q.
      assert (vlen (vreal up) * vdist (vreal z2) z <= 1.01 * (19.4 * u)) by (apply Rmult_le_compat; assumption).
      fold c1 in Dc. lra. }
  set (x1 := v3_normalize c1).
  assert (X1 : vnear (34 * d) x1 x).
  { assert (LW : vlen w <= 1.01).
    { eapply Rle_trans; [apply vlen_vcross|]. rewrite LZ. lra. }
    eapply vnear_weak; [apply (normalize_vnear c1 w (25 * d) E); try lia; try assumption; try lra|lra].
    eapply vnear_weak; [exact C1|]. assert (d * s <= d * vlen w) by (apply Rmult_le_compat_l; lra). lra. }
  pose proof (vnear_len _ _ _ X1) as L1. rewrite LX in L1.
  set (c2 := v3_cross z2 x1).
  assert (C2 : vnear (58.9 * d) c2 y).
  { destruct (cross_vnear z2 x1 1.005) as (Fc & Dc); [apply N2|apply X1| | | |].
    - pose proof (vlen_nonneg (vreal z2)). pose proof (vlen_nonneg (vreal x1)). 
      assert (vlen (vreal z2) <= 1.0012) by lra. assert (vlen (vreal x1) <= 1.0021) by lra. nra.
    - pose proof tiny1 as T1. lra.
    - lra.
    - split; [exact Fc|]. eapply Rle_trans; [apply vdist_triangle with (b := vcross (vreal z2) (vreal x1))|].
      pose proof (vcross_dist (vreal z2) (vreal x1) z x) as Q. destruct N2 as (_ & N2), X1 as (_ & X1). rewrite LZ in Q.
      pose proof (vlen_nonneg (vreal x1)). pose proof (vdist_nonneg (vreal z2) z). change (vcross z x) with y in Q.
      assert (vdist (vreal z2) z * vlen (vreal x1) <= (19.4 * u) * 1.0021) by (apply Rmult_le_compat; lra).
      fold c2 in Dc. lra. }
  set (y1 := v3_normalize c2).
  assert (Y1 : vnear (69 * d) y1 y).
  { rewrite <- (vunit_id y YY). eapply vnear_weak; [apply (normalize_vnear c2 y (58.9 * d) E); try lia; try assumption; rewrite ?LY; try lra|lra].
    rewrite Rmult_1_r. exact C2. }
  apply vnear_weak with (e' := 69 * d) in X1, N2; try lra.
  apply vnear_comps in X1, Y1, N2. destruct X1 as (a1 & a2 & a3), Y1 as (b1 & b2 & b3), N2 as (c3 & c4 & c5).
  unfold mat_near. cbn [m00 m01 m02 m10 m11 m12 m20 m21 m22]. fold x1 y1. repeat (split; [assumption|]). assumption.
Qed.

(** ** The quaternion of the frame *)
Local Notation app := (app prec emax d).
Lemma d11 : d <= / 2048. Proof. lra. Qed.
Lemma dpos : 0 < d. Proof. pose proof u0. lra. Qed.
Lemma fl_quarter : flr o_quarter (/ 4).
Proof.
  assert (H : / 4 = IZR 1 * bpow radix2 (-2)) by (cbn; lra). rewrite H at 1.
  apply (fl_lit prec emax Hp He fsin fcos 1 (-2)); rewrite Rmult_1_l.
  - apply generic_format_bpow. unfold SpecFloat.fexp, SpecFloat.emin. pose proof He as EE. unfold Prec_lt_emax in EE. lia.
  - rewrite Rabs_pos_eq by apply bpow_ge_0. apply bpow_lt. pose proof He as EE. unfold Prec_lt_emax in EE. lia.
Qed.
Lemma denom_err (D : F) a : app D a 4 72.3 -> 0.98 <= a ->
  exists n, flr (o_mul (o_sqrt D) o_two) n /\ Rabs (n - sqrt a * 2) <= 303 * d /\ 1.94 <= n <= 4.06 /\ 1.97 <= sqrt a * 2 <= 4.
Proof.
  intros (r & R & DD & A) LA. pose proof u0 as U0. pose proof u14 as U1. pose proof big64 as BB. pose proof tiny1 as T1.
  assert (A4 : a <= 4) by (apply Rabs_le_inv in A; lra).
  assert (SA : 0.9899 <= sqrt a <= 2).
  { split; [apply Rsqr_incr_0_var|replace 2 with (sqrt 4) by (replace 4 with (2 * 2) by ring; now apply sqrt_square; lra)].
    - unfold Rsqr. rewrite sqrt_sqrt; lra. - apply sqrt_pos. - now apply sqrt_le_1_alt. }
  apply Rabs_le_inv in DD. assert (R0 : 0.962 <= r) by lra.
  assert (SR : 0.98 <= sqrt r).
  { apply Rsqr_incr_0_var; [|apply sqrt_pos]. unfold Rsqr. rewrite sqrt_sqrt; lra. }
  assert (SS : Rabs (sqrt r - sqrt a) <= 147 * d).
  { assert (Q : (sqrt r - sqrt a) * (sqrt r + sqrt a) = r - a).
    { replace ((sqrt r - sqrt a) * (sqrt r + sqrt a)) with (sqrt r * sqrt r - sqrt a * sqrt a) by ring. rewrite !sqrt_sqrt; lra. }
    set (x := sqrt r) in *. set (y := sqrt a) in *. apply Rabs_le. split.
    - destruct (Rle_lt_dec (- (147 * d)) (x - y)); [assumption|]. nra.
    - destruct (Rle_lt_dec (x - y) (147 * d)); [assumption|]. nra. }
  pose proof (fl_sqrt prec emax Hp He fsin fcos D r R ltac:(lra)) as FS.
  assert (SR2 : Rabs (sqrt r) <= 2.01) by (apply Rabs_le_inv in SS; rewrite Rabs_pos_eq; lra).
  pose proof (rnd_err prec emax Hp (sqrt r) 2.01 ltac:(lra) SR2) as RE.
  set (t := rnd prec emax (sqrt r)) in *. apply Rabs_le_inv in RE. apply Rabs_le_inv in SS.
  destruct (mul_err prec emax Hp He fsin fcos _ _ _ _ 4.05 FS (fl_two prec emax Hp He fsin fcos E17)) as (n & N & DN & _); [lra|apply Rabs_le; lra|nra|].
  exists n. split; [exact N|]. apply Rabs_le_inv in DN. split; [apply Rabs_le; lra|]. lra.
Qed.
Lemma pivot_near (x : F) n a : flr x n -> Rabs (n - a) <= 303 * d -> 1.94 <= n <= 4.06 -> near (230 * d) (o_mul o_quarter x) (/ 4 * a).
Proof.
  intros X DN LN. pose proof u0 as U0. pose proof u14 as U1. pose proof big64 as BB. pose proof tiny1 as T1. apply Rabs_le_inv in DN.
  destruct (mul_err prec emax Hp He fsin fcos _ _ _ _ 1.02 fl_quarter X) as (r & (R & <-) & DR & _); [lra|apply Rabs_le; lra|nra|].
  split; [exact R|]. apply Rabs_le_inv in DR. apply Rabs_le. lra.
Qed.
Lemma quot_near (x y : F) n a L : flr x n -> Rabs (n - a) <= 303 * d -> 1.94 <= n <= 4.06 -> app y L 2 70.1 -> 1.97 <= a -> Rabs (L / a) <= 1 ->
  near (230 * d) (o_div y x) (L / a).
Proof.
  intros X DN LN (r & Y & DL & _) A Q. pose proof u0 as U0. pose proof u14 as U1. pose proof big64 as BB. pose proof tiny1 as T1. 
  assert (K : Rabs (r / n - L / a) <= 228.6 * d).
  { replace (r / n - L / a) with (((r - L) + L / a * - (n - a)) / n) by (field; lra).
    unfold Rdiv at 1. rewrite Rabs_mult, (Rabs_pos_eq (/ n)) by (left; apply Rinv_0_lt_compat; lra).
    apply Rmult_le_reg_r with n; [lra|]. rewrite Rmult_assoc, Rinv_l, Rmult_1_r by lra.
    apply Rle_trans with (140.2 * d + 303 * d); [|nra]. apply tri; [lra|]. rewrite Rabs_mult, Rabs_Ropp. pose proof (Rabs_pos (L / a)). pose proof (Rabs_pos (n - a)). nra. }
  assert (B : Rabs (r / n) <= 1.1).
  { replace (r / n) with ((r / n - L / a) + L / a) by ring. eapply Rle_trans; [apply tri; eassumption|]. lra. }
  destruct (div_err prec emax Hp He fsin fcos _ _ _ _ 1.1 Y X) as (t & (T & <-) & DT & _); [lra|lra|exact B|nra|].
  split; [exact T|]. replace (B2R (o_div y x) - L / a) with ((B2R (o_div y x) - r / n) + (r / n - L / a)) by ring.
  eapply Rle_trans; [apply tri; eassumption|]. lra.
Qed.
Lemma app_add1 x y a b : app x a 1 69 -> app y b 1 69 -> app (o_add x y) (a + b) 2 70.1.
Proof.
  intros X Y. pose proof big64 as BB. pose proof tiny1 as T1. replace 2 with (1 + 1) by ring.
  apply (app_add prec emax Hp He fsin fcos d D0 d11 x y a b 1 1 69 69 69 70.1 X Y); lra.
Qed.
Lemma app_sub1 x y a b : app x a 1 69 -> app y b 1 69 -> app (o_sub x y) (a - b) 2 70.1.
Proof.
  intros X Y. pose proof big64 as BB. pose proof tiny1 as T1. replace 2 with (1 + 1) by ring.
  apply (app_sub prec emax Hp He fsin fcos d D0 d11 x y a b 1 1 69 69 69 70.1 X Y); lra.
Qed.
Lemma app_one : app o_one 1 1 69.
Proof. pose proof dpos. exists 1. split; [apply (fl_one' prec emax Hp He fsin fcos)|]. rewrite Rminus_eq_0, Rabs_R0, Rabs_R1. split; nra. Qed.
Lemma sum3_app x y z a b c : app x a 1 69 -> app y b 1 69 -> app z c 1 69 -> app (o_add (o_add x y) z) (a + b + c) 3 71.2.
Proof.
  intros X Y Z. pose proof big64 as BB. pose proof tiny1 as T1. replace 3 with (2 + 1) by ring.
  apply (app_add prec emax Hp He fsin fcos d D0 d11 (o_add x y) z (a + b) c 2 1 70.1 69 70.1 71.2 (app_add1 x y a b X Y) Z); lra.
Qed.
Lemma D_plus x y z a b c : app x a 1 69 -> app y b 1 69 -> app z c 1 69 -> app (o_add (o_add (o_add x y) z) o_one) (a + b + c + 1) 4 72.3.
Proof.
  intros X Y Z. pose proof big64 as BB. pose proof tiny1 as T1. replace 4 with (3 + 1) by ring.
  apply (app_add prec emax Hp He fsin fcos d D0 d11 _ _ (a + b + c) 1 3 1 71.2 69 71.2 72.3 (sum3_app x y z a b c X Y Z) app_one); lra.
Qed.
Lemma D_minus x y z a b c : app x a 1 69 -> app y b 1 69 -> app z c 1 69 -> app (o_sub (o_sub (o_add o_one x) y) z) (1 + a - b - c) 4 72.3.
Proof.
  intros X Y Z. pose proof big64 as BB. pose proof tiny1 as T1. replace 4 with (3 + 1) by ring.
  apply (app_sub prec emax Hp He fsin fcos d D0 d11 _ _ (1 + a - b) c 3 1 71.2 69 71.2 72.3); try lra; [|exact Z].
  replace 3 with (2 + 1) by ring.
  apply (app_sub prec emax Hp He fsin fcos d D0 d11 _ _ (1 + a) b 2 1 70.1 69 70.1 71.2); try lra; [|exact Y].
  apply app_add1; [apply app_one|exact X].
Qed.
(** comparisons of entries *)
Lemma lt_app x y a b W k : app x a 1 69 -> app y b W k -> if o_ltb x y then a <= b + 69 * d + k * d * W else b <= a + 69 * d + k * d * W.
Proof.
  intros (r & X & DX & _) (t & Y & DY & _). apply Rabs_le_inv in DX. apply Rabs_le_inv in DY. pose proof (fl_ltb prec emax Hp He fsin fcos x y r t X Y) as H.
  destruct (o_ltb x y). - apply proj1 in H. specialize (H eq_refl). lra.
  - destruct (Rle_lt_dec t r); [lra|]. apply H in r0. discriminate.
Qed.

(** of the three diagonal entries, the largest *)
Lemma ltb_false3 x y z a b c W1 W2 W3 k1 k2 k3 : app x a W1 k1 -> app y b W2 k2 -> app z c W3 k3 ->
  (andb (o_ltb y x) (o_ltb z x))%bool = false -> (o_ltb z y = true -> o_ltb y x = false) /\ (o_ltb z y = false -> o_ltb z x = false).
Proof.
  intros (x' & X & _) (y' & Y & _) (z' & Z & _) H.
  pose proof (fl_ltb prec emax Hp He fsin fcos y x y' x' Y X) as YX. pose proof (fl_ltb prec emax Hp He fsin fcos z x z' x' Z X) as ZX.
  pose proof (fl_ltb prec emax Hp He fsin fcos z y z' y' Z Y) as ZY.
  destruct (o_ltb y x), (o_ltb z x), (o_ltb z y); try discriminate; split; intros G; auto; exfalso.
  - assert (y' < x') by now apply YX. assert (z' < y') by now apply ZY. assert (true = false); [symmetry; apply ZX; lra|discriminate].
  - assert (z' < x') by now apply ZX. destruct (Rlt_le_dec y' x') as [B|B]; [assert (false = true) by (now apply YX); discriminate|].
    assert (false = true); [apply ZY; lra|discriminate].
Qed.
Lemma from_matrix_near (mh : M33 F) m : is_rotation m -> mat_near (69 * d) mh m ->
  exists q, unit_quat q /\ rotm q = m /\ quat_near (230 * d) (q_from_rotation_matrix mh) q.
Proof.
  intros RM N. pose proof dpos as DP. pose proof (rotation_entries m RM) as (b00 & b01 & b02 & b10 & b11 & b12 & b20 & b21 & b22).
  assert (AP : forall (x : F) a, near (69 * d) x a -> Rabs a <= 1 -> app x a 1 69).
  { intros x a X A. apply (near_app prec emax d (69 * d) x a 1 69 X); [lra|exact A]. }
  destruct N as (n00 & n01 & n02 & n10 & n11 & n12 & n20 & n21 & n22).
  apply AP in n00, n01, n02, n10, n11, n12, n20, n21, n22; try assumption. clear AP.
  unfold q_from_rotation_matrix. cbv zeta.
  set (a := m00 m) in *. set (e := m11 m) in *. set (i := m22 m) in *.
  pose proof (sum3_app _ _ _ _ _ _ n00 n11 n22) as TR.
  assert (Z69 : app o_zero 0 1 69).
  { exists 0. split; [apply (fl_zero' prec emax Hp He fsin fcos)|]. rewrite Rminus_0_r, Rabs_R0. split; nra. }
  pose proof (lt_app _ _ _ _ _ _ Z69 TR) as C0. 
  destruct (o_ltb o_zero (o_add (o_add (m00 mh) (m11 mh)) (m22 mh))).
  { pose proof (D_plus _ _ _ _ _ _ n00 n11 n22) as DD. assert (L : 0.98 <= a + e + i + 1) by lra.
    destruct (qb0_R m RM ltac:(fold a e i; lra)) as (U & ER). exists (qb0 m). split; [exact U|]. split; [exact ER|].
    destruct (unit_quat_comps _ U) as (u1 & u2 & u3 & u4). unfold qb0 in u1, u2, u3, u4. cbn [qi qj qk qw] in u1, u2, u3, u4.
    destruct (denom_err _ _ DD L) as (n & FN & DN & LN & LS).
    unfold quat_near, qb0. cbn [qi qj qk qw]. fold a e i. fold a e i in u1, u2, u3, u4.
    split; [apply (quot_near _ _ n _ _ FN DN LN); [now apply app_sub1|lra|assumption]|].
    split; [apply (quot_near _ _ n _ _ FN DN LN); [now apply app_sub1|lra|assumption]|].
    split; [apply (quot_near _ _ n _ _ FN DN LN); [now apply app_sub1|lra|assumption]|].
    apply (pivot_near _ n _ FN DN LN). }
  pose proof (lt_app _ _ _ _ _ _ n11 n00) as C1. pose proof (lt_app _ _ _ _ _ _ n22 n00) as C2. pose proof (lt_app _ _ _ _ _ _ n22 n11) as C3.
  destruct (andb (o_ltb (m11 mh) (m00 mh)) (o_ltb (m22 mh) (m00 mh))) eqn:B2.
  { apply andb_prop in B2. destruct B2 as (B2 & B2'). rewrite B2 in C1. rewrite B2' in C2.
    pose proof (D_minus _ _ _ _ _ _ n00 n11 n22) as DD. assert (L : 0.98 <= 1 + a - e - i) by lra.
    destruct (qb1_R m RM ltac:(fold a e i; lra)) as (U & ER). exists (qb1 m). split; [exact U|]. split; [exact ER|].
    destruct (unit_quat_comps _ U) as (u1 & u2 & u3 & u4). unfold qb1 in u1, u2, u3, u4. cbn [qi qj qk qw] in u1, u2, u3, u4.
    destruct (denom_err _ _ DD L) as (n & FN & DN & LN & LS).
    unfold quat_near, qb1. cbn [qi qj qk qw]. fold a e i. fold a e i in u1, u2, u3, u4.
    split; [apply (pivot_near _ n _ FN DN LN)|].
    split; [apply (quot_near _ _ n _ _ FN DN LN); [now apply app_add1|lra|assumption]|].
    split; [apply (quot_near _ _ n _ _ FN DN LN); [now apply app_add1|lra|assumption]|].
    apply (quot_near _ _ n _ _ FN DN LN); [now apply app_sub1|lra|assumption]. }
  pose proof (ltb_false3 _ _ _ _ _ _ _ _ _ _ _ _ n00 n11 n22 B2) as B3.
  destruct (o_ltb (m22 mh) (m11 mh)).
  { pose proof (D_minus _ _ _ _ _ _ n11 n00 n22) as DD.
    assert (L : 0.98 <= 1 + e - a - i).
    { rewrite (proj1 B3 eq_refl) in C1. lra. }
    destruct (qb2_R m RM ltac:(fold a e i; lra)) as (U & ER). exists (qb2 m). split; [exact U|]. split; [exact ER|].
    destruct (unit_quat_comps _ U) as (u1 & u2 & u3 & u4). unfold qb2 in u1, u2, u3, u4. cbn [qi qj qk qw] in u1, u2, u3, u4.
    destruct (denom_err _ _ DD L) as (n & FN & DN & LN & LS).
    unfold quat_near, qb2. cbn [qi qj qk qw]. fold a e i. fold a e i in u1, u2, u3, u4.
    split; [apply (quot_near _ _ n _ _ FN DN LN); [now apply app_add1|lra|assumption]|].
    split; [apply (pivot_near _ n _ FN DN LN)|].
    split; [apply (quot_near _ _ n _ _ FN DN LN); [now apply app_add1|lra|assumption]|].
    apply (quot_near _ _ n _ _ FN DN LN); [now apply app_sub1|lra|assumption]. }
  pose proof (D_minus _ _ _ _ _ _ n22 n00 n11) as DD.
  assert (L : 0.98 <= 1 + i - a - e).
  { rewrite (proj2 B3 eq_refl) in C2. lra. }
  destruct (qb3_R m RM ltac:(fold a e i; lra)) as (U & ER). exists (qb3 m). split; [exact U|]. split; [exact ER|].
  destruct (unit_quat_comps _ U) as (u1 & u2 & u3 & u4). unfold qb3 in u1, u2, u3, u4. cbn [qi qj qk qw] in u1, u2, u3, u4.
  destruct (denom_err _ _ DD L) as (n & FN & DN & LN & LS).
  unfold quat_near, qb3. cbn [qi qj qk qw]. fold a e i. fold a e i in u1, u2, u3, u4.
  split; [apply (quot_near _ _ n _ _ FN DN LN); [now apply app_add1|lra|assumption]|].
  split; [apply (quot_near _ _ n _ _ FN DN LN); [now apply app_add1|lra|assumption]|].
  split; [apply (pivot_near _ n _ FN DN LN)|].
  apply (quot_near _ _ n _ _ FN DN LN); [now apply app_sub1|lra|assumption].
Qed.
(** ** Products of quaternions *)
Lemma q_mul_near (a b : Quat F) p q : unit_quat p -> unit_quat q -> quat_near (230 * d) a p -> quat_near (13.6 * d) b q ->
  quat_near (1000 * d) (q_mul a b) (q_mul p q).
Proof.
  intros UP UQ (a1 & a2 & a3 & a4) (b1 & b2 & b3 & b4). pose proof dpos as DP. pose proof big64 as BB. pose proof tiny1 as T1.
  destruct (unit_quat_comps _ UP) as (p1 & p2 & p3 & p4). destruct (unit_quat_comps _ UQ) as (q1 & q2 & q3 & q4).
  assert (M : forall (x y : F) r t, near (230 * d) x r -> near (13.6 * d) y t -> Rabs r <= 1 -> Rabs t <= 1 -> app (o_mul x y) (r * t) 1 246.4).
  { intros x y r t X Y R1 T2.
    assert (X' := near_app prec emax d (230 * d) x r 1 230 X ltac:(lra) R1).
    assert (Y' := near_app prec emax d (13.6 * d) y t 1 13.6 Y ltac:(lra) T2).
    replace 1 with (1 * 1) by ring.
    apply (app_mul prec emax Hp He fsin fcos d D0 d11 x y r t 1 1 230 13.6 246.4 X' Y'); lra. }
  assert (S4 : forall x y z t a b c e, app x a 1 246.4 -> app y b 1 246.4 -> app z c 1 246.4 -> app t e 1 246.4 ->
    near (1000 * d) (o_sub (o_add (o_add x y) z) t) (a + b + c - e) /\ near (1000 * d) (o_add (o_add (o_sub x y) z) t) (a - b + c + e) /\
    near (1000 * d) (o_add (o_sub (o_add x y) z) t) (a + b - c + e) /\ near (1000 * d) (o_sub (o_sub (o_sub x y) z) t) (a - b - c - e)).
  { intros x y z t a' b' c' e' X Y Z T.
    assert (A2 : app (o_add x y) (a' + b') 2 247.6) by (replace 2 with (1 + 1) by ring; apply (app_add prec emax Hp He fsin fcos d D0 d11 x y a' b' 1 1 246.4 246.4 246.4 247.6 X Y); lra).
    assert (S2 : app (o_sub x y) (a' - b') 2 247.6) by (replace 2 with (1 + 1) by ring; apply (app_sub prec emax Hp He fsin fcos d D0 d11 x y a' b' 1 1 246.4 246.4 246.4 247.6 X Y); lra).
    assert (AA : forall v w, app v w 2 247.6 -> app (o_add v z) (w + c') 3 248.8) by (intros v w V; replace 3 with (2 + 1) by ring; apply (app_add prec emax Hp He fsin fcos d D0 d11 v z w c' 2 1 247.6 246.4 247.6 248.8 V Z); lra).
    assert (SS : forall v w, app v w 2 247.6 -> app (o_sub v z) (w - c') 3 248.8) by (intros v w V; replace 3 with (2 + 1) by ring; apply (app_sub prec emax Hp He fsin fcos d D0 d11 v z w c' 2 1 247.6 246.4 247.6 248.8 V Z); lra).
    assert (AAA : forall v w, app v w 3 248.8 -> near (1000 * d) (o_add v t) (w + e')).
    { intros v w V. apply (app_near prec emax d (o_add v t) (w + e') (3 + 1) 250); [|lra].
      apply (app_add prec emax Hp He fsin fcos d D0 d11 v t w e' 3 1 248.8 246.4 248.8 250 V T); lra. }
    assert (SSS : forall v w, app v w 3 248.8 -> near (1000 * d) (o_sub v t) (w - e')).
    { intros v w V. apply (app_near prec emax d (o_sub v t) (w - e') (3 + 1) 250); [|lra].
      apply (app_sub prec emax Hp He fsin fcos d D0 d11 v t w e' 3 1 248.8 246.4 248.8 250 V T); lra. }
    split; [apply SSS; auto|]. split; [apply AAA; auto|]. split; [apply AAA; auto|apply SSS; auto]. }
  unfold q_mul, quat_near. cbn [qi qj qk qw o_add o_sub o_mul R_ops].
  split; [apply S4; apply M; assumption|].
  split; [apply S4; apply M; assumption|].
  split; [apply S4; apply M; assumption|].
  apply S4; apply M; assumption.
Qed.

(** ** from_view *)
Lemma from_view_near (c l up : V3 F) : vec_finite c -> vec_finite l -> vec_finite up ->
  bpow radix2 (- E) <= 0.98 * vlen (vsub (vreal l) (vreal c)) -> 1.02 * vlen (vsub (vreal l) (vreal c)) <= bpow radix2 E ->
  vlen (vreal up) <= 1.01 -> s <= vlen (vcross (vreal up) (vunit (vsub (vreal l) (vreal c)))) ->
  near (2 * u) (fsin (o_div o_pi64 o_two)) 1 -> near (2 * u) (fcos (o_div o_pi64 o_two)) 0 ->
  exists qh q, from_view c l up = from_rotation_and_camcenter qh c /\ unit_quat q /\ quat_near (1000 * d) qh q /\
    mv (mtr (rotm q)) (mkV3 0 0 1) = vunit (vsub (vreal l) (vreal c)) /\
    mv (mtr (rotm q)) (mkV3 1 0 0) = vunit (vcross (vsub (vreal l) (vreal c)) (vreal up)) /\
    mv (mtr (rotm q)) (mkV3 0 (-1) 0) = vunit (up_perp (vreal c) (vreal l) (vreal up)).
Proof.
  intros Fc Fl Fu LO HI LU SU SN CS. pose proof u0 as U0. pose proof u14 as U1. pose proof big64 as BB. pose proof tiny1 as T1. pose proof dpos as DP.
  set (v := vsub (vreal l) (vreal c)) in *. set (z := vunit v) in *.
  assert (LV : 0 < vlen v) by (pose proof (bpow_gt_0 radix2 (- E)); lra).
  assert (VO : v <> vO) by (intros EV; rewrite EV, vlen_O in LV; lra).
  assert (Hz : vdot z z = 1) by now apply vunit_dot.
  assert (Hc : vcross (vreal up) z <> vO) by (intros EC; rewrite EC, vlen_O in SU; lra).
  assert (Hcv : vcross (vreal up) v <> vO).
  { intros EC. apply Hc. unfold z, vunit. rewrite vcross_vscl_r, EC. apply vscl_O. }
  assert (N0 : vnear (1.74 * u * vlen v) (v3_sub l c) v).
  { apply sub_vnear; try assumption; try reflexivity.
    - fold v. apply Rle_trans with (bpow radix2 (- E) / 0.98); [|lra]. apply Rle_trans with (bpow radix2 (- E)); [apply bpow_le; lia|].
      pose proof (bpow_gt_0 radix2 (- E)). lra.
    - fold v. apply Rle_lt_trans with (4 * bpow radix2 E); [lra|]. replace 4 with (bpow radix2 2) by (simpl; lra). rewrite <- bpow_plus. apply bpow_lt. lia. }
  set (z1 := v3_normalize (v3_sub l c)).
  assert (N1 : vnear (10.5 * u) z1 z).
  { eapply vnear_weak; [apply (normalize_vnear (v3_sub l c) v (1.74 * u) E); try lia; try assumption; lra|lra]. }
  destruct (from_matrix_near (rot_face_towards z1 up) (frame_matrix z (vreal up)) (frame_matrix_R z (vreal up) Hz Hc)
    (face_near z1 up z Hz N1 Fu LU SU)) as (q1 & UQ1 & RQ1 & NQ1).
  destruct (view_quat_R z (vreal up) q1 Hz Hc UQ1 RQ1) as (UQ & QZ & QX & QY).
  exists (q_mul (q_look_at_lh z1 up) (q_from_axis_angle z1 o_pi64)), (q_mul (q_inverse q1) (mkQuat (vx z) (vy z) (vz z) 0)).
  split; [reflexivity|]. split; [exact UQ|]. split; [|split; [exact QZ|split]].
  - apply q_mul_near.
    + now apply unit_quat_inverse.
    + unfold unit_quat, qnorm2. cbn [qi qj qk qw]. unfold vdot in Hz. lra.
    + unfold q_look_at_lh, q_inverse, quat_near. cbn [qi qj qk qw]. destruct NQ1 as (n1 & n2 & n3 & n4).
      assert (NG : forall (x : F) r, near (230 * d) x r -> near (230 * d) (o_neg x) (o_neg r)).
      { intros x r (X & DX). destruct (fl_neg prec emax Hp He fsin fcos x (B2R x) (fl_finite prec emax x X)) as (A & B). split; [exact A|].
        rewrite B. cbn [o_neg R_ops]. replace (- B2R x - - r) with (- (B2R x - r)) by ring. now rewrite Rabs_Ropp. }
      repeat (split; [now apply NG|]). exact n4.
    + unfold q_from_axis_angle, quat_near. cbn [qi qj qk qw].
      change (o_sin (o_div o_pi64 o_two)) with (fsin (o_div o_pi64 o_two)). change (o_cos (o_div o_pi64 o_two)) with (fcos (o_div o_pi64 o_two)).
      apply vnear_comps in N1. destruct N1 as (nx & ny & nz). destruct (comp_le z) as (zx & zy & zz).
      assert (LZ : vlen z = 1) by (unfold vlen; rewrite Hz; apply sqrt_1). rewrite LZ in zx, zy, zz.
      set (sn := fsin (o_div o_pi64 o_two)) in *. set (cs := fcos (o_div o_pi64 o_two)) in *.
      assert (MM : forall (x : F) r, near (10.5 * u) x r -> Rabs r <= 1 -> near (13.6 * d) (o_mul x sn) r).
      { intros x r X R1. apply (app_near prec emax d _ _ (1 * 1) 13.6); [|lra]. replace r with (r * 1) by ring.
        apply (app_mul prec emax Hp He fsin fcos d D0 d11 x sn r 1 1 1 10.5 2 13.6); try lra.
        - apply (near_app prec emax d (10.5 * u) x r 1 10.5 X); lra.
        - apply (near_app prec emax d (2 * u) sn 1 1 2 SN); [lra|]. rewrite Rabs_R1; lra. }
      split; [now apply MM|]. split; [now apply MM|]. split; [now apply MM|].
      apply (near_weak prec emax (2 * u)); [exact CS|lra].
  - rewrite QX. unfold z. change (vunit v) with (view_dir (vreal c) (vreal l)). rewrite fx_axis_ideal by assumption. unfold ideal_right. fold v. generalize (vunit (vcross v (vreal up))). intros x. vring.
  - rewrite QY. unfold z. change (vunit v) with (view_dir (vreal c) (vreal l)). now rewrite fy_axis_ideal by assumption.
Qed.
End View.
