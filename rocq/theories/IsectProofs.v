(** * IsectProofs.v - lemmas behind C38-C46 *)

From Coq Require Import Reals List Arith Lia Lra Psatz Bool ZArith Permutation.
From Verif Require Import Scalar Linalg Bundles Extrinsics Perspective Camera RayIntersection Spec SpecIsect RealBase VecLemmas Rows ExtrinsicsProofs IntrinsicsProofs CameraProofs CamMatProofs IsectBase.
Import ListNotations.

(** ** Any scalar type *)
Section Gen.
Context {T F : Type} {O : Ops T} {OF : Ops F}.
Variable to64 : T -> option F.
Variable from64 : F -> T.
Variable svd : M33 F -> bool -> bool -> F -> nat -> option (SVD F).
Hypothesis to64_total : forall x, to64 x <> None.
Hypothesis cutoff_nonneg : o_ltb (lit_1em7 (F := F)) o_zero = false.
Hypothesis svd_complete : forall m eps n d, svd m true true eps n = Some d ->
  svd_u d <> None /\ svd_vt d <> None.

Lemma sum_total xs acc : exists y, sum_as_f64_acc to64 acc xs = Some y.
Proof.
  revert acc; induction xs as [|x xs IH]; intros acc; simpl; [now eexists|].
  destruct (to64 x) eqn:E; [|now apply to64_total in E]. simpl. apply IH.
Qed.
Lemma pinv_total m :
  (svd m true true lit_1em7 100 = None /\ my_pinv svd m = Some (Err SvdFailed)) \/
  (svd m true true lit_1em7 100 <> None /\ exists p, my_pinv svd m = Some (Ok p)).
Proof.
  unfold my_pinv. destruct (svd _ _ _ _ _) as [d|] eqn:E; [right|left; now split].
  split; [discriminate|]. apply svd_complete in E. destruct E as (U & V).
  unfold svd_pseudo_inverse. rewrite cutoff_nonneg. unfold svd_recompose. cbn [svd_u svd_vt].
  destruct (svd_u d); [|easy]. destruct (svd_vt d); [|easy]. cbn [bind]. now eexists.
Qed.

Lemma isect_cases {Coords} (rays : list (Ray Coords T)) : (2 <= length rays)%nat -> exists m,
  (svd m true true lit_1em7 100 = None /\
   best_intersection_of_rays to64 from64 svd rays = Some (Err SvdFailed)) \/
  (svd m true true lit_1em7 100 <> None /\
   exists x, best_intersection_of_rays to64 from64 svd rays = Some (Ok (mkPoints [x]))).
Proof.
  intros L. rewrite isect_unfold by exact L. unfold sum_as_f64.
  repeat match goal with |- context [sum_as_f64_acc to64 ?a ?xs] =>
    let E := fresh in destruct (sum_total xs a) as (? & E); rewrite E; cbn [bind]; clear E end.
  match goal with |- context [my_pinv svd ?m] => exists m; destruct (pinv_total m) as [(A & B)|(A & p & B)] end;
  rewrite B; cbn [bind]; [left|right]; (split; [exact A|]); [reflexivity|now eexists].
Qed.

Lemma isect_few {Coords} (rays : list (Ray Coords T)) :
  (length rays < 2)%nat -> best_intersection_of_rays to64 from64 svd rays = Some (Err MinimumTwoRaysNeeded).
Proof.
  intros L. unfold best_intersection_of_rays.
  now replace (Nat.ltb (length rays) 2) with true by (symmetry; apply Nat.ltb_lt; lia).
Qed.
End Gen.

Lemma C38_lemma {T F} {O : Ops T} {OF : Ops F} (to64 : T -> option F) (from64 : F -> T)
    (svd : M33 F -> bool -> bool -> F -> nat -> option (SVD F)) {Coords} (rays : list (Ray Coords T)) :
  (forall x, to64 x <> None) ->
  o_ltb (lit_1em7 (F := F)) o_zero = false ->
  (forall m eps n d, svd m true true eps n = Some d -> svd_u d <> None /\ svd_vt d <> None) ->
  let best := best_intersection_of_rays to64 from64 svd rays in
  ((length rays < 2)%nat <-> best = Some (Err MinimumTwoRaysNeeded)) /\
  ((2 <= length rays)%nat -> exists m,
     (svd m true true lit_1em7 100%nat = None /\ best = Some (Err SvdFailed)) \/
     (svd m true true lit_1em7 100%nat <> None /\ exists x, best = Some (Ok (mkPoints [x])))).
Proof.
  intros H1 H2 H3 best. split; [split|].
  - intros L. now apply isect_few.
  - intros E. destruct (Nat.lt_ge_cases (length rays) 2) as [L|L]; [exact L|].
    destruct (isect_cases to64 from64 svd H1 H2 H3 rays L) as (m & [(_ & B)|(_ & x & B)]);
    unfold best in E; rewrite B in E; discriminate.
  - intros L. apply (isect_cases to64 from64 svd H1 H2 H3 rays L).
Qed.

(** ** Exact reals *)
Local Open Scope R_scope.

Lemma lit_1em7_R : lit_1em7 = cutoff :> R.
Proof. reflexivity. Qed.
Lemma cutoff_pos : 0 < cutoff.
Proof. unfold cutoff. apply Rmult_lt_0_compat; [lra|]. apply Rinv_0_lt_compat, pow_lt; lra. Qed.
Lemma cutoff_lt : cutoff < 1 / 10000000.
Proof. unfold cutoff. simpl. lra. Qed.
Lemma cutoff_gt : 99 / 1000000000 < cutoff.
Proof. unfold cutoff. simpl. lra. Qed.
Lemma cutoff_nn : o_ltb (lit_1em7 (F := R)) o_zero = false.
Proof.
  rewrite lit_1em7_R. cbn [o_ltb o_zero R_ops]. unfold Rltb. pose proof cutoff_pos.
  destruct (Rlt_dec cutoff 0); [lra|reflexivity].
Qed.
Lemma to64_R_total : forall x : R, Some x <> None. Proof. discriminate. Qed.

Lemma sum_R_acc l : forall acc : R, sum_as_f64_acc (fun x : R => Some x) acc l = Some (acc + rsum l).
Proof.
  induction l as [|x l IH]; intros acc; simpl; [f_equal; lra|]. rewrite IH. f_equal. cbn. lra.
Qed.
Lemma sum_R l : sum_as_f64 (fun x : R => Some x) l = Some (rsum l).
Proof. unfold sum_as_f64. rewrite sum_R_acc. f_equal. cbn. lra. Qed.

Definition Smat {C} (rays : list (Ray C R)) : M33 R :=
  mkM33 (rsum (map t_xx rays)) (rsum (map t_xy rays)) (rsum (map t_xz rays))
        (rsum (map t_xy rays)) (rsum (map t_yy rays)) (rsum (map t_yz rays))
        (rsum (map t_xz rays)) (rsum (map t_yz rays)) (rsum (map t_zz rays)).
Definition Cvec {C} (rays : list (Ray C R)) : V3 R :=
  mkV3 (rsum (map t_cx rays)) (rsum (map t_cy rays)) (rsum (map t_cz rays)).

Definition isect svd {C} (rays : list (Ray C R)) : option (result (Points C R)) :=
  best_intersection_of_rays (fun x => Some x) (fun x => x) svd rays.

Lemma isect_R svd {C} (rays : list (Ray C R)) : (2 <= length rays)%nat ->
  isect svd rays =
  (pinv <- my_pinv svd (Smat rays) ;;
   match pinv with Err e => Some (Err e) | Ok m => Some (Ok (mkPoints [mv m (Cvec rays)])) end).
Proof.
  intros L. unfold isect. rewrite isect_unfold by exact L. rewrite !sum_R. cbn [bind].
  apply bind_ext. intros [m|e]; [|reflexivity]. now destruct m.
Qed.

(** *** The pseudo inverse *)
Definition finv (s : R) : R := if Rltb cutoff s then 1 / s else 0.
Definition pinv_of (u : M33 R) (s : V3 R) (vt : M33 R) : M33 R :=
  mtr (mm (mm u (mdiag (mkV3 (finv (vx s)) (finv (vy s)) (finv (vz s))))) vt).
Lemma my_pinv_R svd m d u vt : svd m true true cutoff 100%nat = Some d ->
  svd_u d = Some u -> svd_vt d = Some vt -> my_pinv svd m = Some (Ok (pinv_of u (svd_s d) vt)).
Proof.
  intros E U V. unfold my_pinv. rewrite lit_1em7_R, E. unfold svd_pseudo_inverse.
  pose proof cutoff_nn as N. rewrite lit_1em7_R in N. rewrite N. unfold svd_recompose. cbn [svd_u svd_vt svd_s].
  rewrite U, V. cbn [bind]. do 2 f_equal. unfold pinv_of. rewrite m33_transpose_R, m33_mul_R. f_equal. f_equal.
  unfold finv. cbn [o_ltb o_mul o_div o_one o_zero R_ops vx vy vz]. unfold mdiag.
  generalize (if Rltb cutoff (vx (svd_s d)) then 1 / vx (svd_s d) else 0)
             (if Rltb cutoff (vy (svd_s d)) then 1 / vy (svd_s d) else 0)
             (if Rltb cutoff (vz (svd_s d)) then 1 / vz (svd_s d) else 0).
  intros a b c. destruct u. apply M33_eq; ru_spec; ring.
Qed.

Lemma mdiag_mv s v : mv (mdiag s) v = mkV3 (vx s * vx v) (vy s * vy v) (vz s * vz v).
Proof. destruct s, v. unfold mdiag. apply V3_eq; ru_spec; ring. Qed.
Lemma mdiag_mtr s : mtr (mdiag s) = mdiag s. Proof. reflexivity. Qed.

Lemma mv_pinv_m m u s vt v : is_svd m u s vt ->
  mv (pinv_of u s vt) (mv m v) =
  mv (mtr vt) (mkV3 (finv (vx s) * vx s * vx (mv vt v)) (finv (vy s) * vy s * vy (mv vt v)) (finv (vz s) * vz s * vz (mv vt v))).
Proof.
  intros (U & V & _ & _ & _ & <-). unfold pinv_of. rewrite !mtr_mm, !mv_mm, mdiag_mtr.
  f_equal. rewrite (orthogonal_inv_l u) by exact U. rewrite !mdiag_mv. cbn [vx vy vz].
  apply V3_eq; cbn [vx vy vz]; ring.
Qed.

(** Symmetric [m] with eigenvector [e]. *)
Lemma eig_components m u s vt e l : is_svd m u s vt -> mtr m = m -> mv m e = vscl l e ->
  let w := mv vt e in
  vx s * vx s * vx w = l * l * vx w /\ vy s * vy s * vy w = l * l * vy w /\ vz s * vz s * vz w = l * l * vz w.
Proof.
  intros (U & V & _ & _ & _ & M) Sy E w.
  assert (E2 : mv (mtr m) (mv m e) = vscl (l * l) e).
  { rewrite Sy, E, mv_vscl, E, vscl_vscl. reflexivity. }
  rewrite <- M in E2. rewrite !mtr_mm, !mv_mm, mdiag_mtr in E2.
  rewrite (orthogonal_inv_l u) in E2 by exact U.
  apply (f_equal (mv vt)) in E2. rewrite (orthogonal_inv_r vt) in E2 by exact V.
  rewrite mv_vscl in E2. fold w in E2. rewrite !mdiag_mv in E2. unfold vscl in E2. cbn [vx vy vz] in E2.
  apply V3_inv in E2. destruct E2 as (A & B & C). repeat split; lra.
Qed.
Lemma eig_step s l w : 0 <= s -> s * s * w = l * l * w ->
  finv s * s * w = if Rltb cutoff (Rabs l) then w else 0.
Proof.
  intros S0 H. destruct (Req_dec w 0) as [->|W]; [destruct (Rltb _ _); ring|].
  assert (Q : s = Rabs l).
  { apply Rsqr_inj; [exact S0|apply Rabs_pos|]. rewrite <- Rsqr_abs. unfold Rsqr.
    apply (Rmult_eq_reg_r w); [lra|exact W]. }
  rewrite <- Q. unfold finv. unfold Rltb. destruct (Rlt_dec cutoff s) as [L|L]; [|ring].
  pose proof cutoff_pos. field. lra.
Qed.
Lemma pinv_eig m u s vt e l : is_svd m u s vt -> mtr m = m -> mv m e = vscl l e ->
  mv (pinv_of u s vt) (mv m e) = if Rltb cutoff (Rabs l) then e else vO.
Proof.
  intros D Sy E. rewrite mv_pinv_m by exact D.
  destruct (eig_components m u s vt e l D Sy E) as (A & B & C).
  destruct D as (U & V & S1 & S2 & S3 & _).
  rewrite (eig_step _ _ _ S1 A), (eig_step _ _ _ S2 B), (eig_step _ _ _ S3 C).
  destruct (Rltb cutoff (Rabs l)).
  - transitivity (mv (mtr vt) (mv vt e)); [f_equal; now apply V3_eq|]. now apply orthogonal_inv_l.
  - apply mv_O.
Qed.

(** All singular values above the cutoff. *)
Lemma finv_cancel s : cutoff < s -> finv s * s = 1.
Proof. intros H. unfold finv, Rltb. destruct (Rlt_dec cutoff s); [|lra]. pose proof cutoff_pos. field. lra. Qed.
Lemma pinv_full_r m u s vt v : is_svd m u s vt -> cutoff < vx s -> cutoff < vy s -> cutoff < vz s ->
  mv m (mv (pinv_of u s vt) v) = v.
Proof.
  intros (U & V & _ & _ & _ & <-) A B C. unfold pinv_of. rewrite !mtr_mm, !mv_mm, mdiag_mtr.
  rewrite (orthogonal_inv_r vt) by exact V. rewrite !mdiag_mv. cbn [vx vy vz].
  rewrite <- (orthogonal_inv_r u v) at 4 by exact U. f_equal.
  pose proof (finv_cancel _ A). pose proof (finv_cancel _ B). pose proof (finv_cancel _ C).
  apply V3_eq; cbn [vx vy vz].
  - transitivity (finv (vx s) * vx s * vx (mv (mtr u) v)); [ring|]. rewrite H. ring.
  - transitivity (finv (vy s) * vy s * vy (mv (mtr u) v)); [ring|]. rewrite H0. ring.
  - transitivity (finv (vz s) * vz s * vz (mv (mtr u) v)); [ring|]. rewrite H1. ring.
Qed.

Definition E1 : V3 R := mkV3 1 0 0.
Definition E2 : V3 R := mkV3 0 1 0.
Definition E3 : V3 R := mkV3 0 0 1.
Lemma E_len e : e = E1 \/ e = E2 \/ e = E3 -> vlen e = 1.
Proof. intros [-> |[-> | ->]]; apply vlen_1; unfold E1, E2, E3; ru_spec; ring. Qed.

Lemma vlen_le_dot a b : vlen b = 1 -> vdot a b <= vlen a.
Proof.
  intros B. apply Rsqr_incr_0_var; [|apply vlen_nonneg]. unfold Rsqr. rewrite vlen_sq.
  pose proof (lagrange a b) as L. pose proof (vdot_self_nonneg (vcross a b)).
  rewrite <- (vlen_sq b), B in L. lra.
Qed.

(** If -v.Sv > cutoff for unit v, then every singular value exceeds the cutoff. *)
Lemma sv_large m u s vt : is_svd m u s vt -> (forall v, vlen v = 1 -> cutoff < - vdot v (mv m v)) ->
  cutoff < vx s /\ cutoff < vy s /\ cutoff < vz s.
Proof.
  intros (U & V & S1 & S2 & S3 & M) H.
  assert (K : forall e t, vlen e = 1 -> 0 <= t -> mv (mdiag s) e = vscl t e -> cutoff < t).
  { intros e t Le T0 De. set (v := mv (mtr vt) e).
    assert (Lv : vlen v = 1) by (unfold v; rewrite orthogonal_len; [exact Le|now apply orthogonal_mtr]).
    specialize (H v Lv). eapply Rlt_le_trans; [exact H|].
    replace (- vdot v (mv m v)) with (vdot (vopp (mv m v)) v) by vring.
    eapply Rle_trans; [now apply vlen_le_dot|]. right.
    replace (vopp (mv m v)) with (vscl (-1) (mv m v)) by vring. rewrite vlen_vscl.
    rewrite <- M, !mv_mm. unfold v. rewrite (orthogonal_inv_r vt) by exact V.
    rewrite orthogonal_len by exact U. rewrite De, vlen_vscl, Le, (Rabs_pos_eq t) by exact T0.
    rewrite Rabs_left by lra. ring. }
  repeat split.
  - apply (K E1); [apply E_len; auto|exact S1|]. rewrite mdiag_mv. unfold E1; apply V3_eq; ru_spec; ring.
  - apply (K E2); [apply E_len; auto|exact S2|]. rewrite mdiag_mv. unfold E2; apply V3_eq; ru_spec; ring.
  - apply (K E3); [apply E_len; auto|exact S3|]. rewrite mdiag_mv. unfold E3; apply V3_eq; ru_spec; ring.
Qed.

(** *** The normal equations *)
Definition prj {C} (r : Ray C R) (v : V3 R) : V3 R :=
  vsub (vscl (vdot (vunit (ray_direction r)) v) (vunit (ray_direction r))) v.

Lemma rsum_cons {A} (f : A -> R) a l : rsum (map f (a :: l)) = f a + rsum (map f l).
Proof. reflexivity. Qed.
Lemma Smat_cons {C} (r : Ray C R) rays v : mv (Smat (r :: rays)) v = vadd (prj r v) (mv (Smat rays) v).
Proof.
  unfold Smat, prj. rewrite !rsum_cons. unfold t_xx, t_yy, t_zz, t_xy, t_xz, t_yz, rdir.
  rewrite v3_normalize_R. unfold powi2. rewrite o_mone_R. cbn [o_add o_mul R_ops].
  generalize (vunit (ray_direction r)). intros [a b c]. destruct v as [x y z]. apply V3_eq; ru_spec; ring.
Qed.
Lemma Cvec_cons {C} (r : Ray C R) rays : Cvec (r :: rays) = vadd (prj r (ray_center r)) (Cvec rays).
Proof.
  unfold Cvec, prj. rewrite !rsum_cons. unfold t_cx, t_cy, t_cz, t_xx, t_yy, t_zz, t_xy, t_xz, t_yz, rdir.
  rewrite v3_normalize_R. unfold powi2. rewrite o_mone_R. cbn [o_add o_mul R_ops].
  generalize (vunit (ray_direction r)) (ray_center r). intros [a b c] [x y z]. apply V3_eq; ru_spec; ring.
Qed.
Lemma Smat_nil {C} v : mv (Smat (C := C) []) v = vO.
Proof. destruct v. unfold Smat, rsum; cbn [map fold_right]. apply V3_eq; ru_spec; ring. Qed.
Lemma Smat_sym {C} (rays : list (Ray C R)) : mtr (Smat rays) = Smat rays.
Proof. reflexivity. Qed.

Lemma prj_vadd {C} (r : Ray C R) a b : prj r (vadd a b) = vadd (prj r a) (prj r b).
Proof. unfold prj. generalize (vunit (ray_direction r)). vring. Qed.
Lemma prj_vsub {C} (r : Ray C R) a b : prj r (vsub a b) = vsub (prj r a) (prj r b).
Proof. unfold prj. generalize (vunit (ray_direction r)). vring. Qed.
Lemma prj_vscl {C} (r : Ray C R) s a : prj r (vscl s a) = vscl s (prj r a).
Proof. unfold prj. generalize (vunit (ray_direction r)). vring. Qed.
Lemma prj_sym {C} (r : Ray C R) a b : vdot a (prj r b) = vdot (prj r a) b.
Proof. unfold prj. generalize (vunit (ray_direction r)). vring. Qed.

Lemma cross_dist d v : d <> vO ->
  vdot (vcross v d) (vcross v d) / vdot d d = vdot v v - vdot (vunit d) v * vdot (vunit d) v.
Proof.
  intros H. pose proof (vdot_self_pos d H) as P. rewrite lagrange. unfold vunit. rewrite !vdot_vscl_l.
  pose proof (vlen_pos d H) as L. rewrite (vdot_comm d v), <- (vlen_sq d). field. lra.
Qed.
Lemma dist_prj {C} (r : Ray C R) v : ray_direction r <> vO ->
  line_dist2 v vO (ray_direction r) = - vdot v (prj r v).
Proof.
  intros H. unfold line_dist2. rewrite vsub_0_r, cross_dist by exact H. unfold prj.
  generalize (vunit (ray_direction r)). vring.
Qed.
Lemma dist_shift y p d : line_dist2 y p d = line_dist2 (vsub y p) vO d.
Proof. unfold line_dist2. now rewrite vsub_0_r. Qed.
Lemma dist_prj3 {C} (r : Ray C R) y : ray_direction r <> vO ->
  line_dist2 y (ray_center r) (ray_direction r)
  = - vdot y (prj r y) + 2 * vdot y (prj r (ray_center r)) - vdot (ray_center r) (prj r (ray_center r)).
Proof.
  intros H. rewrite dist_shift, (dist_prj r) by exact H. unfold prj.
  generalize (vunit (ray_direction r)) (ray_center r). vring.
Qed.

(** The constant term of the sum of squares. *)
Definition Kc {C} (rays : list (Ray C R)) : R := rsum (map (fun r => vdot (ray_center r) (prj r (ray_center r))) rays).
Lemma sum_sq_dist_quad {C} (rays : list (Ray C R)) y : nonzero_dirs rays ->
  sum_sq_dist rays y = - vdot y (mv (Smat rays) y) + 2 * vdot y (Cvec rays) - Kc rays.
Proof.
  induction rays as [|r rays IH]; intros N.
  - rewrite Smat_nil. unfold sum_sq_dist, Kc, Cvec, rsum; cbn [map fold_right].
    destruct y; ru_spec; ring.
  - inversion N as [|? ? N1 N2]; subst. rewrite Smat_cons, Cvec_cons.
    unfold sum_sq_dist, Kc. rewrite !rsum_cons, dist_prj3 by exact N1.
    specialize (IH N2). unfold sum_sq_dist, Kc in IH. rewrite IH, !vdot_vadd_r. ring.
Qed.
Lemma sum_sq_sin_quad {C} (rays : list (Ray C R)) v : nonzero_dirs rays ->
  sum_sq_sin rays v = - vdot v (mv (Smat rays) v).
Proof.
  induction rays as [|r rays IH]; intros N.
  - rewrite Smat_nil, vdot_O_r. unfold sum_sq_sin, rsum; cbn. ring.
  - inversion N as [|? ? N1 N2]; subst. rewrite Smat_cons. unfold sum_sq_sin. rewrite rsum_cons, dist_prj by exact N1.
    specialize (IH N2). unfold sum_sq_sin in IH. rewrite IH, vdot_vadd_r. ring.
Qed.
Lemma vdot_Smat {C} (rays : list (Ray C R)) a b : vdot a (mv (Smat rays) b) = vdot b (mv (Smat rays) a).
Proof. rewrite (vdot_comm a), vdot_mv, Smat_sym. reflexivity. Qed.

(** The sum of squares around a solution of the normal equations. *)
Lemma sum_sq_dist_diff {C} (rays : list (Ray C R)) x y : nonzero_dirs rays ->
  mv (Smat rays) x = Cvec rays ->
  sum_sq_dist rays y = sum_sq_dist rays x + sum_sq_sin rays (vsub y x).
Proof.
  intros N E. rewrite !sum_sq_dist_quad, sum_sq_sin_quad by exact N. rewrite <- E.
  rewrite mv_vsub. rewrite !vdot_vsub_l, !vdot_vsub_r. rewrite (vdot_Smat rays x y). ring.
Qed.
Lemma line_dist2_nonneg y p d : d <> vO -> 0 <= line_dist2 y p d.
Proof.
  intros H. unfold line_dist2. apply Rmult_le_pos; [apply vdot_self_nonneg|].
  left. now apply Rinv_0_lt_compat, vdot_self_pos.
Qed.
Lemma rsum_nonneg l : Forall (fun x => 0 <= x) l -> 0 <= rsum l.
Proof. induction 1 as [|x l H _ IH]; [right; reflexivity|]. change (0 <= x + rsum l). lra. Qed.
Lemma sum_sq_sin_nonneg {C} (rays : list (Ray C R)) v : nonzero_dirs rays -> 0 <= sum_sq_sin rays v.
Proof.
  intros N. apply rsum_nonneg, Forall_map. eapply Forall_impl; [|exact N]. intros r H. now apply line_dist2_nonneg.
Qed.
Lemma sum_sq_dist_nonneg {C} (rays : list (Ray C R)) v : nonzero_dirs rays -> 0 <= sum_sq_dist rays v.
Proof.
  intros N. apply rsum_nonneg, Forall_map. eapply Forall_impl; [|exact N]. intros r H. now apply line_dist2_nonneg.
Qed.
Lemma sum_sq_sin_vscl {C} (rays : list (Ray C R)) s v : nonzero_dirs rays ->
  sum_sq_sin rays (vscl s v) = s * s * sum_sq_sin rays v.
Proof. intros N. rewrite !sum_sq_sin_quad by exact N. rewrite mv_vscl, vdot_vscl_l, vdot_vscl_r. ring. Qed.
Lemma well_conditioned_pos {C} (rays : list (Ray C R)) v : nonzero_dirs rays -> well_conditioned rays ->
  v <> vO -> 0 < sum_sq_sin rays v.
Proof.
  intros N W V. rewrite <- (vunit_scale v V), sum_sq_sin_vscl by exact N.
  specialize (W (vunit v) (vunit_len v V)). pose proof cutoff_pos. pose proof (vlen_pos v V).
  apply Rmult_lt_0_compat; [now apply Rmult_lt_0_compat|lra].
Qed.

Lemma isect_not_failed svd {C} (rays : list (Ray C R)) : svd_sound svd -> (2 <= length rays)%nat ->
  isect svd rays <> Some (Err SvdFailed) ->
  exists u s vt, is_svd (Smat rays) u s vt /\
    isect svd rays = Some (Ok (mkPoints [mv (pinv_of u s vt) (Cvec rays)])).
Proof.
  intros HS L NF. rewrite isect_R in * by exact L.
  destruct (svd (Smat rays) true true cutoff 100%nat) as [d|] eqn:E.
  - destruct (HS _ _ _ _ E) as (u & vt & U & V & D). rewrite (my_pinv_R svd _ d u vt E U V). cbn [bind].
    now exists u, (svd_s d), vt.
  - exfalso. apply NF. unfold my_pinv. rewrite lit_1em7_R, E. reflexivity.
Qed.

Lemma isect_well svd {C} (rays : list (Ray C R)) : svd_sound svd -> (2 <= length rays)%nat ->
  nonzero_dirs rays -> well_conditioned rays -> isect svd rays <> Some (Err SvdFailed) ->
  exists x, isect svd rays = Some (Ok (mkPoints [x])) /\ mv (Smat rays) x = Cvec rays.
Proof.
  intros HS L N W NF. destruct (isect_not_failed svd rays HS L NF) as (u & s & vt & D & E).
  eexists. split; [exact E|].
  destruct (sv_large _ _ _ _ D) as (A & B & Cc).
  { intros v Hv. rewrite <- sum_sq_sin_quad by exact N. now apply W. }
  now apply pinv_full_r.
Qed.

Lemma vsub_eq a b : vsub a b = vO -> a = b.
Proof. intros H. rewrite <- (vadd_vsub a b), H. apply vadd_0_l. Qed.

Lemma C39_lemma svd {C} (rays : list (Ray C R)) : svd_sound svd -> (2 <= length rays)%nat ->
  nonzero_dirs rays -> well_conditioned rays ->
  let best := best_intersection_of_rays (fun x => Some x) (fun x => x) svd rays in
  best <> Some (Err SvdFailed) ->
  exists x, best = Some (Ok (mkPoints [x])) /\
    (forall y, y <> x -> sum_sq_dist rays x < sum_sq_dist rays y).
Proof.
  intros HS L N W best NF. destruct (isect_well svd rays HS L N W NF) as (x & E & S).
  exists x. split; [exact E|]. intros y Y. rewrite (sum_sq_dist_diff rays x y N S).
  assert (P : vsub y x <> vO) by (intros H; now apply Y, vsub_eq).
  pose proof (well_conditioned_pos rays _ N W P). lra.
Qed.

(** The distance used is the distance to the closest point of the line. *)
Lemma C39b_lemma y p d : d <> vO ->
  (forall t, line_dist2 y p d <= vdot (vsub y (vadd p (vscl t d))) (vsub y (vadd p (vscl t d)))) /\
  (exists t, line_dist2 y p d = vdot (vsub y (vadd p (vscl t d))) (vsub y (vadd p (vscl t d)))).
Proof.
  intros H. pose proof (vdot_self_pos d H) as P.
  assert (K : forall t, vdot (vsub y (vadd p (vscl t d))) (vsub y (vadd p (vscl t d)))
     = line_dist2 y p d + (t * vdot d d - vdot (vsub y p) d) * (t * vdot d d - vdot (vsub y p) d) / vdot d d).
  { intros t. unfold line_dist2. rewrite lagrange.
    replace (vsub y (vadd p (vscl t d))) with (vsub (vsub y p) (vscl t d)) by vring.
    generalize dependent (vsub y p). intros v. rewrite !vdot_vsub_l, !vdot_vsub_r, !vdot_vscl_l, !vdot_vscl_r.
    rewrite (vdot_comm d v). field. lra. }
  split.
  - intros t. rewrite K. assert (0 <= (t * vdot d d - vdot (vsub y p) d) * (t * vdot d d - vdot (vsub y p) d) / vdot d d).
    { apply Rmult_le_pos; [apply Rle_0_sqr|]. left. now apply Rinv_0_lt_compat. } lra.
  - exists (vdot (vsub y p) d / vdot d d). rewrite K. field. lra.
Qed.

(** *** Two rays *)
Lemma gram a b c : triple a b c * triple a b c =
  vdot a a * (vdot b b * vdot c c - vdot b c * vdot b c)
  - vdot a b * (vdot a b * vdot c c - vdot b c * vdot a c)
  + vdot a c * (vdot a b * vdot b c - vdot b b * vdot a c).
Proof. vring. Qed.
Lemma two_rays a b v : vdot a a = 1 -> vdot b b = 1 -> vdot v v = 1 -> Rabs (vdot a b) < 1 ->
  vdot a v * vdot a v + vdot b v * vdot b v <= 1 + Rabs (vdot a b).
Proof.
  intros A B V L. pose proof (gram a b v) as G. rewrite A, B, V in G.
  set (x := vdot a v) in *. set (y := vdot b v) in *. set (c := vdot a b) in *.
  assert (G0 : 0 <= 1 - x * x - y * y - c * c + 2 * (c * (x * y))).
  { replace (1 - x * x - y * y - c * c + 2 * (c * (x * y))) with (triple a b v * triple a b v) by (rewrite G; ring).
    apply Rle_0_sqr. }
  assert (XY : 2 * (c * (x * y)) <= Rabs c * (x * x + y * y)).
  { apply Rle_trans with (Rabs (2 * (c * (x * y)))); [apply Rle_abs|].
    rewrite !Rabs_mult, (Rabs_pos_eq 2) by lra.
    replace (x * x + y * y) with (Rabs x * Rabs x + Rabs y * Rabs y).
    - pose proof (Rle_0_sqr (Rabs x - Rabs y)) as Q. unfold Rsqr in Q. pose proof (Rabs_pos c). nra.
    - rewrite <- !Rabs_mult. now rewrite !Rabs_pos_eq by apply Rle_0_sqr. }
  assert (CC : c * c = Rabs c * Rabs c) by (rewrite <- Rabs_mult; symmetry; apply Rabs_pos_eq, Rle_0_sqr).
  pose proof (Rabs_pos c). apply (Rmult_le_reg_l (1 - Rabs c)); [lra|]. nra.
Qed.
Lemma cosine_unit a b : a <> vO -> b <> vO -> cosine a b = vdot (vunit a) (vunit b).
Proof.
  intros A B. unfold cosine, vunit. rewrite vdot_vscl_l, vdot_vscl_r.
  pose proof (vlen_pos a A). pose proof (vlen_pos b B). field. lra.
Qed.
Lemma rsum_app l l' : rsum (l ++ l') = rsum l + rsum l'.
Proof.
  induction l as [|x l IH].
  - change (rsum l' = 0 + rsum l'). ring.
  - change (x + rsum (l ++ l') = x + rsum l + rsum l'). rewrite IH. ring.
Qed.

Lemma C40_lemma {C} (l1 l2 l3 : list (Ray C R)) r1 r2 :
  let rays := l1 ++ r1 :: l2 ++ r2 :: l3 in
  nonzero_dirs rays -> Rabs (cosine (ray_direction r1) (ray_direction r2)) < 1 - cutoff ->
  well_conditioned rays.
Proof.
  intros rays N H v V. unfold rays, nonzero_dirs in *.
  apply Forall_app in N. destruct N as (N1 & N). inversion N as [|? ? D1 N']; subst. clear N.
  apply Forall_app in N'. destruct N' as (N2 & N). inversion N as [|? ? D2 N3]; subst. clear N.
  unfold sum_sq_sin. rewrite map_app, rsum_app, rsum_cons, map_app, rsum_app, rsum_cons.
  pose proof (sum_sq_sin_nonneg l1 v N1) as P1. pose proof (sum_sq_sin_nonneg l2 v N2) as P2.
  pose proof (sum_sq_sin_nonneg l3 v N3) as P3. unfold sum_sq_sin in P1, P2, P3.
  assert (V1 : vdot v v = 1) by (rewrite <- vlen_sq, V; ring).
  unfold line_dist2 at 2 4. rewrite vsub_0_r, !cross_dist by assumption. rewrite V1.
  rewrite cosine_unit in H by assumption.
  pose proof (two_rays _ _ v (vunit_dot _ D1) (vunit_dot _ D2) V1) as T.
  pose proof cutoff_pos. specialize (T ltac:(lra)). lra.
Qed.

(** *** Lines through one point *)
Definition on_line {C} (x : V3 R) (r : Ray C R) : Prop := exists t, x = vadd (ray_center r) (vscl t (ray_direction r)).
Lemma on_line_dist {C} x (r : Ray C R) : on_line x r -> line_dist2 x (ray_center r) (ray_direction r) = 0.
Proof.
  intros (t & ->). unfold line_dist2.
  replace (vcross (vsub (vadd (ray_center r) (vscl t (ray_direction r))) (ray_center r)) (ray_direction r)) with vO by vring.
  rewrite vdot_O_l. unfold Rdiv. ring.
Qed.
Lemma sum_sq_dist_through {C} (rays : list (Ray C R)) x : Forall (on_line x) rays -> sum_sq_dist rays x = 0.
Proof.
  induction 1 as [|r rays H _ IH]; [reflexivity|]. unfold sum_sq_dist. rewrite rsum_cons, on_line_dist by exact H.
  unfold sum_sq_dist in IH. rewrite IH. ring.
Qed.
Lemma C41_lemma svd {C} (rays : list (Ray C R)) x : svd_sound svd -> (2 <= length rays)%nat ->
  nonzero_dirs rays -> well_conditioned rays ->
  Forall (fun r => exists t, x = vadd (ray_center r) (vscl t (ray_direction r))) rays ->
  let best := best_intersection_of_rays (fun x => Some x) (fun x => x) svd rays in
  best <> Some (Err SvdFailed) -> best = Some (Ok (mkPoints [x])).
Proof.
  intros HS L N W T best NF. destruct (C39_lemma svd rays HS L N W NF) as (z & E & M).
  fold best in E. rewrite E. do 4 f_equal.
  assert (D : {x = z} + {x <> z}).
  { destruct x as [a b c], z as [a' b' c']. destruct (Req_EM_T a a'), (Req_EM_T b b'), (Req_EM_T c c'); subst;
    try (left; reflexivity); right; intros Q; injection Q; congruence. }
  destruct D as [Q|Q]; [now symmetry|exfalso]. specialize (M x Q). rewrite (sum_sq_dist_through rays x T) in M.
  pose proof (sum_sq_dist_nonneg rays z N). lra.
Qed.
Lemma Cvec_through {C} (rays : list (Ray C R)) x : nonzero_dirs rays -> Forall (on_line x) rays ->
  Cvec rays = mv (Smat rays) x.
Proof.
  induction rays as [|r rays IH]; intros N T.
  - rewrite Smat_nil. reflexivity.
  - inversion N as [|? ? N1 N2]; inversion T as [|? ? T1 T2]; subst. rewrite Smat_cons, Cvec_cons, IH by assumption.
    f_equal. destruct T1 as (t & ->). rewrite prj_vadd, prj_vscl.
    replace (prj r (ray_direction r)) with vO; [rewrite vscl_O; now rewrite vadd_0_r|].
    unfold prj. pose proof (vunit_scale _ N1) as U. set (n := vunit (ray_direction r)) in *.
    set (len := vlen (ray_direction r)) in *. rewrite <- U. rewrite vdot_vscl_r.
    assert (vdot n n = 1) by (apply vunit_dot; exact N1). rewrite H. symmetry. vring.
Qed.

(** *** Nearly parallel rays *)
(** Two rays in the x-z plane, symmetric about the z axis. *)
Definition vee (X : V3 R) (a b t1 t2 : R) : list (Ray WorldFrame R) :=
  [mkRay (vadd X (vscl t1 (mkV3 a 0 b))) (mkV3 a 0 b); mkRay (vadd X (vscl t2 (mkV3 (- a) 0 b))) (mkV3 (- a) 0 b)].

Lemma pinv_sum m u s vt X : mv (pinv_of u s vt) (mv m X) =
  vadd (vscl (vx X) (mv (pinv_of u s vt) (mv m E1)))
   (vadd (vscl (vy X) (mv (pinv_of u s vt) (mv m E2))) (vscl (vz X) (mv (pinv_of u s vt) (mv m E3)))).
Proof.
  rewrite <- !mv_vscl, <- !mv_vadd. f_equal. f_equal. destruct X. unfold E1, E2, E3. apply V3_eq; ru_spec; ring.
Qed.
Lemma vee_unit a b : 0 < a * a + b * b -> exists n, 0 < n /\ n * n = a * a + b * b /\
  vunit (mkV3 a 0 b) = mkV3 (a / n) 0 (b / n) /\ vunit (mkV3 (- a) 0 b) = mkV3 (- a / n) 0 (b / n).
Proof.
  intros P. exists (sqrt (a * a + b * b)). assert (Q : 0 < sqrt (a * a + b * b)) by now apply sqrt_lt_R0.
  split; [exact Q|]. split; [apply sqrt_sqrt; lra|].
  split; unfold vunit.
  - replace (vlen (mkV3 a 0 b)) with (sqrt (a * a + b * b)).
    + apply V3_eq; ru_spec; field; lra.
    + symmetry. apply vlen_unique; [lra|]. rewrite sqrt_sqrt by lra. ru_spec. ring.
  - replace (vlen (mkV3 (- a) 0 b)) with (sqrt (a * a + b * b)).
    + apply V3_eq; ru_spec; field; lra.
    + symmetry. apply vlen_unique; [lra|]. rewrite sqrt_sqrt by lra. ru_spec. ring.
Qed.
Lemma vee_eig X a b t1 t2 : 0 < a * a + b * b ->
  let k := a * a / (a * a + b * b) in
  mv (Smat (vee X a b t1 t2)) E1 = vscl (2 * k - 2) E1 /\
  mv (Smat (vee X a b t1 t2)) E2 = vscl (-2) E2 /\
  mv (Smat (vee X a b t1 t2)) E3 = vscl (- (2 * k)) E3.
Proof.
  intros P k. destruct (vee_unit a b P) as (n & N0 & NN & U1 & U2).
  unfold vee. rewrite !Smat_cons, !Smat_nil. unfold prj. cbn [ray_direction]. rewrite U1, U2.
  assert (K : k = a * a / (n * n)) by (unfold k; now rewrite NN).
  assert (B2 : b * b / (n * n) = 1 - k) by (rewrite K; replace (b * b) with (n * n - a * a) by lra; field; lra).
  repeat split; unfold E1, E2, E3; apply V3_eq; ru_spec; try (try rewrite K; field; lra).
  replace (b / n * 1) with (b / n) by ring.
  transitivity (2 * (b * b / (n * n)) - 2); [field; lra|]. rewrite B2. ring.
Qed.

Lemma C42_lemma svd X a b t1 t2 : svd_sound svd ->
  a <> 0 -> 2 * (a * a) <= cutoff * (a * a + b * b) -> vz X <> 0 ->
  let r1 := mkRay (Coords := WorldFrame) (vadd X (vscl t1 (mkV3 a 0 b))) (mkV3 a 0 b) in
  let r2 := mkRay (Coords := WorldFrame) (vadd X (vscl t2 (mkV3 (- a) 0 b))) (mkV3 (- a) 0 b) in
  (* the lines meet in X and nowhere else *)
  (forall y, (exists s, y = vadd (ray_center r1) (vscl s (ray_direction r1))) /\
             (exists s, y = vadd (ray_center r2) (vscl s (ray_direction r2))) <-> y = X) /\
  (let best := best_intersection_of_rays (fun x => Some x) (fun x => x) svd [r1; r2] in
   best <> Some (Err SvdFailed) ->
   best = Some (Ok (mkPoints [mkV3 (vx X) (vy X) 0])) /\ mkV3 (vx X) (vy X) 0 <> X).
Proof.
  intros HS A0 Sm ZX r1 r2.
  assert (P : 0 < a * a + b * b) by (pose proof (Rle_0_sqr b); unfold Rsqr in *; nra).
  assert (B0 : b <> 0).
  { intros ->. pose proof cutoff_lt. assert (0 < a * a) by nra. nra. }
  split.
  - intros y. split.
    + intros ((s & E) & (s' & E')). unfold r1, r2 in *; cbn [ray_center ray_direction] in *.
      rewrite E in E'. destruct X as [x1 x2 x3]. rewrite E. clear E.
      unfold vadd, vscl in E'; cbn [vx vy vz] in E'. apply V3_inv in E'. destruct E' as (Q1 & _ & Q3).
      assert (Q : t1 + s = t2 + s') by (apply (Rmult_eq_reg_r b); [lra|exact B0]).
      assert (Q' : t1 + s = - (t2 + s')) by (apply (Rmult_eq_reg_r a); [lra|exact A0]).
      assert (Z : t1 + s = 0) by lra.
      apply V3_eq; ru_spec.
      * transitivity (x1 + (t1 + s) * a); [ring|rewrite Z; ring].
      * ring.
      * transitivity (x3 + (t1 + s) * b); [ring|rewrite Z; ring].
    + intros ->. split; [exists (- t1)|exists (- t2)]; unfold r1, r2; cbn [ray_center ray_direction]; vring.
  - intros best NF. split; [|intros Q; apply (f_equal vz) in Q; cbn in Q; now symmetry in Q].
    assert (L : (2 <= length [r1; r2])%nat) by (simpl; lia).
    destruct (isect_not_failed svd [r1; r2] HS L NF) as (u & s & vt & D & E).
    unfold best. unfold isect in E. rewrite E. do 4 f_equal.
    assert (N : nonzero_dirs [r1; r2]).
    { repeat constructor; unfold r1, r2; cbn [ray_direction]; unfold vO; intros Q; apply V3_inv in Q; lra. }
    rewrite (Cvec_through [r1; r2] X N).
    2:{ repeat constructor; [exists (- t1)|exists (- t2)]; unfold r1, r2; cbn [ray_center ray_direction]; vring. }
    destruct (vee_eig X a b t1 t2 P) as (e1 & e2 & e3). change (vee X a b t1 t2) with [r1; r2] in e1, e2, e3.
    set (k := a * a / (a * a + b * b)) in *.
    assert (K : 2 * k <= cutoff).
    { apply (Rmult_le_reg_r (a * a + b * b)); [exact P|]. unfold k.
      replace (2 * (a * a / (a * a + b * b)) * (a * a + b * b)) with (2 * (a * a)) by (field; lra). exact Sm. }
    assert (K0 : 0 <= k).
    { unfold k. apply Rmult_le_pos; [apply Rle_0_sqr|]. left. now apply Rinv_0_lt_compat. }
    pose proof cutoff_lt.
    rewrite pinv_sum. rewrite (pinv_eig _ _ _ _ _ _ D (Smat_sym _) e1), (pinv_eig _ _ _ _ _ _ D (Smat_sym _) e2),
      (pinv_eig _ _ _ _ _ _ D (Smat_sym _) e3).
    assert (c1 : Rltb cutoff (Rabs (2 * k - 2)) = true).
    { unfold Rltb. rewrite Rabs_left by lra. destruct (Rlt_dec _ _); [reflexivity|lra]. }
    assert (c2 : Rltb cutoff (Rabs (-2)) = true).
    { unfold Rltb. rewrite Rabs_left by lra. destruct (Rlt_dec _ _); [reflexivity|lra]. }
    assert (c3 : Rltb cutoff (Rabs (- (2 * k))) = false).
    { unfold Rltb. rewrite Rabs_Ropp, Rabs_pos_eq by lra. destruct (Rlt_dec _ _); [lra|reflexivity]. }
    rewrite c1, c2, c3. destruct X. unfold E1, E2. apply V3_eq; ru_spec; ring.
Qed.

(** *** Parallel rays *)
Definition prjn (m v : V3 R) : V3 R := vsub (vscl (vdot m v) m) v.
Lemma vunit_vscl_sign s a : s <> 0 -> a <> vO -> vunit (vscl s a) = vunit a \/ vunit (vscl s a) = vopp (vunit a).
Proof.
  intros S A. pose proof (vlen_pos a A). destruct (Rlt_dec s 0) as [L|L]; [right|left].
  - unfold vunit. rewrite vlen_vscl, Rabs_left by exact L. rewrite vscl_vscl.
    replace (/ (- s * vlen a) * s) with (- / vlen a) by (field; lra). vring.
  - apply vunit_vscl. lra.
Qed.
Lemma prj_parallel {C} (r : Ray C R) n s v : n <> vO -> s <> 0 -> ray_direction r = vscl s n ->
  prj r v = prjn (vunit n) v.
Proof.
  intros N S E. unfold prj, prjn. rewrite E. destruct (vunit_vscl_sign s n S N) as [-> | ->]; [reflexivity|].
  generalize (vunit n). vring.
Qed.
Definition vsum (l : list (V3 R)) : V3 R := fold_right vadd vO l.
Lemma Smat_parallel {C} (rays : list (Ray C R)) n : n <> vO ->
  Forall (fun r => exists s, s <> 0 /\ ray_direction r = vscl s n) rays ->
  (forall v, mv (Smat rays) v = vscl (INR (length rays)) (prjn (vunit n) v)) /\
  Cvec rays = prjn (vunit n) (vsum (map ray_center rays)).
Proof.
  intros N. induction 1 as [|r rays (s & S & E) _ (IH1 & IH2)].
  - split; [intros v; rewrite Smat_nil; simpl; symmetry; apply vscl_0|].
    unfold Cvec, rsum, vsum, prjn; cbn [map fold_right]. generalize (vunit n). vring.
  - split.
    + intros v. rewrite Smat_cons, IH1, (prj_parallel r n s v N S E). cbn [length]. rewrite S_INR. generalize (prjn (vunit n) v).
      vring.
    + rewrite Cvec_cons, IH2, (prj_parallel r n s _ N S E). 
      change (vsum (map ray_center (r :: rays))) with (vadd (ray_center r) (vsum (map ray_center rays))).
      unfold prjn. generalize (vunit n) (ray_center r).
      generalize (vsum (map ray_center rays)). vring.
Qed.
Lemma prjn_orth m v : vdot m m = 1 -> vdot m (prjn m v) = 0.
Proof. intros M. unfold prjn. rewrite vdot_vsub_r, vdot_vscl_r, M. ring. Qed.
Lemma prjn_neg m v : vdot m v = 0 -> prjn m v = vscl (-1) v.
Proof. intros M. unfold prjn. rewrite M. vring. Qed.

Lemma C43_lemma svd {C} (rays : list (Ray C R)) n : svd_sound svd -> (2 <= length rays)%nat ->
  n <> vO -> Forall (fun r => exists s, s <> 0 /\ ray_direction r = vscl s n) rays ->
  let best := best_intersection_of_rays (fun x => Some x) (fun x => x) svd rays in
  best <> Some (Err SvdFailed) ->
  exists x, best = Some (Ok (mkPoints [x])) /\
    (forall y, sum_sq_dist rays x <= sum_sq_dist rays y) /\
    (forall y, y <> x -> sum_sq_dist rays y = sum_sq_dist rays x -> vlen x < vlen y).
Proof.
  intros HS L N P best NF. destruct (isect_not_failed svd rays HS L NF) as (u & s & vt & D & E).
  destruct (Smat_parallel rays n N P) as (SM & CV). set (m := vunit n) in *.
  assert (M : vdot m m = 1) by now apply vunit_dot.
  set (len := INR (length rays)) in *.
  assert (Len : 2 <= len) by (unfold len; apply le_INR in L; simpl in L; lra).
  assert (ND : nonzero_dirs rays).
  { eapply Forall_impl; [|exact P]. intros r (t & T0 & ->) Q. apply N.
    rewrite <- (vscl_1 n), <- (Rinv_l t T0), <- vscl_vscl, Q. apply vscl_O. }
  set (mean := vscl (/ len) (vsum (map ray_center rays))).
  set (x := vscl (-1) (prjn m mean)).
  assert (Ox : vdot m x = 0) by (unfold x; rewrite vdot_vscl_r, prjn_orth by exact M; ring).
  assert (Ex : mv (Smat rays) x = vscl (- len) x).
  { rewrite SM, prjn_neg by exact Ox. rewrite vscl_vscl. f_equal. ring. }
  assert (SC : mv (Smat rays) x = Cvec rays).
  { rewrite Ex, CV. unfold x, mean. rewrite vscl_vscl. 
    replace (prjn m (vscl (/ len) (vsum (map ray_center rays)))) with (vscl (/ len) (prjn m (vsum (map ray_center rays)))) by (unfold prjn; vring).
    rewrite vscl_vscl. replace (- len * -1 * / len) with 1 by (field; lra). apply vscl_1. }
  assert (Rx : mv (pinv_of u s vt) (Cvec rays) = x).
  { rewrite <- SC. rewrite (pinv_eig _ _ _ _ _ _ D (Smat_sym _) Ex). unfold Rltb.
    rewrite Rabs_Ropp, Rabs_pos_eq by lra. pose proof cutoff_lt. destruct (Rlt_dec cutoff len); [reflexivity|lra]. }
  exists x. split; [unfold best; rewrite <- Rx; exact E|]. split.
  - intros y. rewrite (sum_sq_dist_diff rays x y ND SC). pose proof (sum_sq_sin_nonneg rays (vsub y x) ND). lra.
  - intros y Y Q. rewrite (sum_sq_dist_diff rays x y ND SC) in Q.
    assert (Z : sum_sq_sin rays (vsub y x) = 0) by lra. clear Q.
    rewrite sum_sq_sin_quad, SM in Z by exact ND. set (w := vsub y x) in *.
    assert (W : w <> vO) by (intros H; now apply Y, vsub_eq).
    assert (Z2 : vdot w w = vdot m w * vdot m w).
    { rewrite vdot_vscl_r in Z. unfold prjn in Z. rewrite vdot_vsub_r, vdot_vscl_r, (vdot_comm w m) in Z.
      assert (len * (vdot m w * vdot m w - vdot w w) = 0) by lra.
      apply Rmult_integral in H. lra. }
    assert (Wm : w = vscl (vdot m w) m).
    { apply vsub_eq. apply vdot_self_0. rewrite !vdot_vsub_l, !vdot_vsub_r, !vdot_vscl_l, !vdot_vscl_r, M, (vdot_comm w m). lra. }
    assert (Xw : vdot x w = 0) by (rewrite Wm, vdot_vscl_r, (vdot_comm x m), Ox; ring).
    replace y with (vadd x w) by (unfold w; vring).
    apply sqrt_lt_1; [apply vdot_self_nonneg|apply vdot_self_nonneg|].
    rewrite !vdot_vadd_l, !vdot_vadd_r, (vdot_comm w x), Xw. pose proof (vdot_self_pos w W). lra.
Qed.

(** *** Only the lines matter *)
Lemma rsum_perm {A} (f : A -> R) l l' : Permutation l l' -> rsum (map f l) = rsum (map f l').
Proof.
  induction 1 as [|a l l' _ IH|a b l|l l' l'' _ IH1 _ IH2]; [reflexivity| | |congruence].
  - rewrite !rsum_cons, IH. reflexivity.
  - rewrite !rsum_cons. ring.
Qed.
Lemma rsum_Forall2 {A} (f : A -> R) l l' : Forall2 (fun a b => f a = f b) l l' -> rsum (map f l) = rsum (map f l').
Proof. induction 1 as [|a b l l' H _ IH]; [reflexivity|]. rewrite !rsum_cons, IH, H. reflexivity. Qed.

Lemma mv_ext a b : (forall v, mv a v = mv b v) -> a = b.
Proof.
  intros H. pose proof (H E1) as H1. pose proof (H E2) as H2. pose proof (H E3) as H3. clear H.
  destruct a as [a0 a1 a2 a3 a4 a5 a6 a7 a8], b as [b0 b1 b2 b3 b4 b5 b6 b7 b8]. unfold E1, E2, E3, mv in *. cbn [vx vy vz m00 m01 m02 m10 m11 m12 m20 m21 m22] in *.
  apply V3_inv in H1. apply V3_inv in H2. apply V3_inv in H3. apply M33_eq; cbn; lra.
Qed.
Lemma prjn_self n : n <> vO -> prjn (vunit n) n = vO.
Proof.
  intros N. pose proof (vunit_dot n N) as M. rewrite <- (vunit_scale n N) at 2.
  unfold prjn. rewrite vdot_vscl_r, M. vring.
Qed.
Lemma same_line_prj {C} (r r' : Ray C R) : ray_direction r <> vO -> same_line r r' ->
  (forall v, prj r v = prj r' v) /\ prj r (ray_center r) = prj r' (ray_center r').
Proof.
  intros N (s & t & S & D & P).
  assert (A : forall v, prj r v = prj r' v) by (intros v; symmetry; exact (prj_parallel r' _ s v N S D)).
  split; [exact A|]. rewrite <- A, P, prj_vadd, prj_vscl.
  change (prj r (ray_direction r)) with (prjn (vunit (ray_direction r)) (ray_direction r)).
  rewrite prjn_self, vscl_O by exact N. now rewrite vadd_0_r.
Qed.
Lemma same_lines_SC {C} (rays rays' : list (Ray C R)) : nonzero_dirs rays -> Forall2 same_line rays rays' ->
  Smat rays = Smat rays' /\ Cvec rays = Cvec rays'.
Proof.
  intros N H. induction H as [|r r' rays rays' H _ IH]; [now split|].
  inversion N as [|? ? N1 N2]; subst. destruct (IH N2) as (A & B).
  destruct (same_line_prj r r' N1 H) as (Q & Q').
  split; [|now rewrite !Cvec_cons, B, Q'].
  apply mv_ext. intros v. now rewrite !Smat_cons, A, Q.
Qed.
Lemma perm_SC {C} (rays rays' : list (Ray C R)) : Permutation rays rays' ->
  Smat rays = Smat rays' /\ Cvec rays = Cvec rays'.
Proof.
  intros H. unfold Smat, Cvec.
  now rewrite !(rsum_perm t_xx _ _ H), !(rsum_perm t_xy _ _ H), !(rsum_perm t_xz _ _ H), !(rsum_perm t_yy _ _ H),
    !(rsum_perm t_yz _ _ H), !(rsum_perm t_zz _ _ H), !(rsum_perm t_cx _ _ H), !(rsum_perm t_cy _ _ H), !(rsum_perm t_cz _ _ H).
Qed.

(** Any SVD routine whatsoever. *)
Lemma C44_lemma svd {C} (rays mid rays' : list (Ray C R)) : nonzero_dirs rays ->
  Permutation rays mid -> Forall2 same_line mid rays' ->
  best_intersection_of_rays (fun x => Some x) (fun x => x) svd rays
  = best_intersection_of_rays (fun x => Some x) (fun x => x) svd rays'.
Proof.
  intros N P H. assert (N' : nonzero_dirs mid) by (eapply Permutation_Forall; eassumption).
  destruct (perm_SC _ _ P) as (A1 & B1). destruct (same_lines_SC mid rays' N' H) as (A2 & B2).
  assert (Len : length rays = length rays') by (rewrite (Permutation_length P); clear -H; induction H; simpl; congruence).
  destruct (Nat.lt_ge_cases (length rays) 2) as [L|L].
  - now rewrite !isect_few by lia.
  - change (isect svd rays = isect svd rays'). rewrite !isect_R by lia. now rewrite A1, A2, B1, B2.
Qed.

(** *** Rigid motions *)
Lemma line_dist2_move m t y p d : orthogonal m ->
  line_dist2 (vadd (mv m y) t) (vadd (mv m p) t) (mv m d) = line_dist2 y p d.
Proof.
  intros O. unfold line_dist2. rewrite !lagrange.
  replace (vsub (vadd (mv m y) t) (vadd (mv m p) t)) with (mv m (vsub y p)) by (rewrite mv_vsub; generalize (mv m y) (mv m p); vring).
  now rewrite !orthogonal_dot by exact O.
Qed.
Lemma sum_sq_dist_move {C} m t (rays : list (Ray C R)) y : orthogonal m ->
  sum_sq_dist (map (move_ray m t) rays) (vadd (mv m y) t) = sum_sq_dist rays y.
Proof.
  intros O. unfold sum_sq_dist. rewrite map_map. f_equal. apply map_ext. intros r.
  unfold move_ray; cbn [ray_center ray_direction]. now apply line_dist2_move.
Qed.
Lemma sum_sq_sin_move {C} m t (rays : list (Ray C R)) v : orthogonal m ->
  sum_sq_sin (map (move_ray m t) rays) (mv m v) = sum_sq_sin rays v.
Proof.
  intros O. unfold sum_sq_sin. rewrite map_map. f_equal. apply map_ext. intros r.
  unfold move_ray; cbn [ray_direction]. rewrite <- (line_dist2_move m vO v vO) by exact O.
  now rewrite mv_O, !vadd_0_r.
Qed.
Lemma mv_nonzero m d : orthogonal m -> d <> vO -> mv m d <> vO.
Proof. intros O D E. apply D. rewrite <- (orthogonal_inv_l m d O), E. apply mv_O. Qed.
Lemma nonzero_dirs_move {C} m t (rays : list (Ray C R)) : orthogonal m -> nonzero_dirs rays ->
  nonzero_dirs (map (move_ray m t) rays).
Proof.
  intros O N. apply Forall_map. eapply Forall_impl; [|exact N]. intros r H. now apply mv_nonzero.
Qed.
Lemma well_conditioned_move {C} m t (rays : list (Ray C R)) : orthogonal m -> well_conditioned rays ->
  well_conditioned (map (move_ray m t) rays).
Proof.
  intros O W v V. rewrite <- (orthogonal_inv_r m v O), sum_sq_sin_move by exact O. apply W.
  rewrite orthogonal_len; [exact V|now apply orthogonal_mtr].
Qed.
Lemma V3_dec (x z : V3 R) : {x = z} + {x <> z}.
Proof.
  destruct x as [a b c], z as [a' b' c']. destruct (Req_EM_T a a'), (Req_EM_T b b'), (Req_EM_T c c'); subst;
  try (left; reflexivity); right; intros Q; injection Q; congruence.
Qed.

Lemma C45_lemma svd {C} (rays : list (Ray C R)) m t : svd_sound svd -> (2 <= length rays)%nat ->
  nonzero_dirs rays -> well_conditioned rays -> orthogonal m ->
  let best := best_intersection_of_rays (fun x => Some x) (fun x => x) svd rays in
  let best' := best_intersection_of_rays (fun x => Some x) (fun x => x) svd (map (move_ray m t) rays) in
  best <> Some (Err SvdFailed) -> best' <> Some (Err SvdFailed) ->
  exists x, best = Some (Ok (mkPoints [x])) /\ best' = Some (Ok (mkPoints [vadd (mv m x) t])).
Proof.
  intros HS L N W O best best' NF NF'.
  destruct (C39_lemma svd rays HS L N W NF) as (x & E & M).
  destruct (C39_lemma svd (map (move_ray m t) rays) HS ltac:(now rewrite map_length)
    (nonzero_dirs_move m t rays O N) (well_conditioned_move m t rays O W) NF') as (x' & E' & M').
  exists x. split; [exact E|]. unfold best'. rewrite E'. do 4 f_equal.
  destruct (V3_dec (vadd (mv m x) t) x') as [Q|Q]; [now symmetry|exfalso].
  specialize (M' _ Q). rewrite sum_sq_dist_move in M' by exact O.
  set (z := mv (mtr m) (vsub x' t)).
  assert (Z : x' = vadd (mv m z) t) by (unfold z; rewrite (orthogonal_inv_r m) by exact O; vring).
  rewrite Z, sum_sq_dist_move in M' by exact O.
  assert (ZX : z <> x) by (intros H; apply Q; now rewrite Z, H).
  specialize (M _ ZX). lra.
Qed.

(** *** Triangulation *)
Lemma unproject_project k v : pp_fx k <> 0 -> pp_fy k <> 0 -> vz v <> 0 ->
  persp_unproject_row k (persp_pixel k v) = vscl (/ vz v) v.
Proof.
  intros A B Z. destruct v as [x y z]. cbn [vz] in Z. unfold persp_unproject_row, persp_pixel, vscl.
  cbn [px py vx vy vz o_add o_sub o_mul o_div o_one R_ops].
  apply V3_eq; cbn [vx vy vz]; field; auto.
Qed.
Lemma view_ray k q c X : pp_fx k <> 0 -> pp_fy k <> 0 -> unit_quat q -> vz (mv (rotm q) (vsub X c)) <> 0 ->
  (px <- world_to_pixel (camera_new (perspective_from k) (frc q c)) (mkPoints [X]) ;;
   rb <- pixel_to_world (camera_new (perspective_from k) (frc q c)) px ;;
   @to_single_ray R _ _ SharedOrigin_Bundle rb)
  = Some (mkRay c (vscl (/ vz (mv (rotm q) (vsub X c))) (vsub X c))).
Proof.
  intros A B U Z. rewrite world_to_pixel_persp; [|exact U|repeat constructor; exact Z].
  cbn [map bind]. rewrite persp_pixel_to_world by exact U. cbn [map bind]. unfold to_single_ray.
  cbn [rb_data rb_type b_to_single_ray SharedOrigin_Bundle]. unfold so_to_single_ray. cbn [so_center].
  rewrite unproject_project by assumption. rewrite mv_vscl. unfold to_camera.
  rewrite orthogonal_inv_l by now apply rotm_orthogonal. reflexivity.
Qed.
Lemma cosine_vscl s t a b : s <> 0 -> t <> 0 -> a <> vO -> b <> vO ->
  Rabs (cosine (vscl s a) (vscl t b)) = Rabs (cosine a b).
Proof.
  intros S T A B. unfold cosine. rewrite !vlen_vscl, vdot_vscl_l, vdot_vscl_r.
  pose proof (vlen_pos a A). pose proof (vlen_pos b B).
  pose proof (Rabs_pos_lt s S). pose proof (Rabs_pos_lt t T).
  unfold Rdiv. rewrite !Rabs_mult, !Rabs_inv, !Rabs_mult, !Rabs_Rabsolu. field.
  pose proof (Rabs_pos_lt (vlen a) ltac:(lra)). pose proof (Rabs_pos_lt (vlen b) ltac:(lra)). repeat split; lra.
Qed.

Definition cam_of (kqc : PerspectiveParams R * Quat R * V3 R) :=
  camera_new (perspective_from (fst (fst kqc))) (frc (snd (fst kqc)) (snd kqc)).

Lemma C46_lemma svd X (l1 l2 l3 : list (PerspectiveParams R * Quat R * V3 R)) a b : svd_sound svd ->
  let cams := l1 ++ a :: l2 ++ b :: l3 in
  Forall (fun kqc => let k := fst (fst kqc) in let q := snd (fst kqc) in let c := snd kqc in
    pp_fx k <> 0 /\ pp_fy k <> 0 /\ unit_quat q /\ vz (mv (rotm q) (vsub X c)) <> 0) cams ->
  Rabs (cosine (vsub X (snd a)) (vsub X (snd b))) < 1 - cutoff ->
  exists rays : list (Ray WorldFrame R),
    Forall2 (fun kqc r =>
      let cam := camera_new (perspective_from (fst (fst kqc))) (frc (snd (fst kqc)) (snd kqc)) in
      (px <- world_to_pixel cam (mkPoints [X]) ;;
       rb <- pixel_to_world cam px ;;
       @to_single_ray R _ _ SharedOrigin_Bundle rb) = Some r) cams rays /\
    (let best := best_intersection_of_rays (fun x => Some x) (fun x => x) svd rays in
     best <> Some (Err SvdFailed) -> best = Some (Ok (mkPoints [X]))).
Proof.
  intros HS cams H Co.
  set (depth := fun kqc : PerspectiveParams R * Quat R * V3 R => vz (mv (rotm (snd (fst kqc))) (vsub X (snd kqc)))).
  set (ray := fun kqc : PerspectiveParams R * Quat R * V3 R =>
    mkRay (Coords := WorldFrame) (snd kqc) (vscl (/ depth kqc) (vsub X (snd kqc)))).
  assert (NZ : forall kqc, depth kqc <> 0 -> vsub X (snd kqc) <> vO).
  { intros kqc D E. apply D. unfold depth. rewrite E, mv_O. reflexivity. }
  exists (map ray cams). split.
  - clear Co. induction H as [|kqc cams' (A & B & U & Z) _ IH]; cbn [map]; constructor; [|exact IH].
    cbv zeta. now apply view_ray.
  - intros best NF.
    assert (ND : nonzero_dirs (map ray cams)).
    { apply Forall_map. eapply Forall_impl; [|exact H]. intros kqc (_ & _ & _ & Z) E. unfold ray in E; cbn [ray_direction] in E.
      apply (NZ kqc Z). fold (depth kqc) in Z. rewrite <- (vscl_1 (vsub X (snd kqc))), <- (Rinv_r (depth kqc) Z), <- vscl_vscl, E.
      apply vscl_O. }
    apply C41_lemma; try assumption.
    + rewrite map_length. unfold cams. rewrite app_length; simpl; rewrite app_length; simpl. lia.
    + unfold cams in ND, H |- *. rewrite map_app in *. cbn [map] in *. rewrite map_app in *. cbn [map] in *.
      apply (C40_lemma _ _ _ _ _ ND). unfold ray; cbn [ray_direction].
      apply Forall_app in H. destruct H as (_ & H). inversion H as [|? ? (_ & _ & _ & Da) H']; subst.
      apply Forall_app in H'. destruct H' as (_ & H'). inversion H' as [|? ? (_ & _ & _ & Db) _]; subst.
      fold (depth a) in Da. fold (depth b) in Db.
      rewrite cosine_vscl; auto using Rinv_neq_0_compat.
    + apply Forall_map. eapply Forall_impl; [|exact H]. intros kqc (_ & _ & _ & Z). exists (depth kqc).
      unfold ray; cbn [ray_center ray_direction]. fold (depth kqc) in Z. rewrite vscl_vscl, Rinv_r, vscl_1 by exact Z. vring.
Qed.
