(** * SymEigenProofs10.v - the intersection of rays computed with nalgebra's SVD: always a point, also for parallel rays *)

From Coq Require Import Reals List Arith Lra Lia Psatz.
From Verif Require Import Scalar Linalg Bundles Householder RayIntersection SymEigen Spec SpecGeom SpecIsect SpecTri SpecSvd RealBase VecLemmas FromViewProofs QRProofs
  IsectBase IsectProofs TriProofs SymEigenProofs SymEigenProofs2 SymEigenProofs3 SymEigenProofs4 SymEigenProofs5 SymEigenProofs6 SymEigenProofs8 SymEigenProofs9.
Import ListNotations.
Local Open Scope R_scope.

Lemma cutoff_16 : 1 / 10 ^ 16 <= cutoff.
Proof. pose proof cutoff_gt. simpl. lra. Qed.
Lemma svd3_of_rays {C} (rays : list (Ray C R)) : (2 <= length rays)%nat -> nonzero_dirs rays ->
  let best := best_intersection_of_rays (fun x => Some x) (fun x => x) svd3_try_new rays in
  exists q r v, best = Some (Ok (mkPoints [mv (pinv_of q (mkV3 (m00 r) (m11 r) (m22 r)) (mtr v)) (Cvec rays)])) /\
    orthogonal q /\ orthogonal v /\ mm q r = mm (Smat rays) v /\
    m10 r = 0 /\ m20 r = 0 /\ m21 r = 0 /\ 0 <= m00 r /\ 0 <= m11 r /\ 0 <= m22 r /\
    let b := 4 * cutoff * (INR (length rays) * INR (length rays)) in
    (Rabs (m00 r * m01 r) <= b /\ Rabs (m00 r * m02 r) <= b /\ Rabs (m01 r * m02 r + m11 r * m12 r) <= b) /\
    m01 r * m01 r + m11 r * m11 r <= m00 r * m00 r /\
    m02 r * m02 r + m12 r * m12 r + m22 r * m22 r <= m01 r * m01 r + m11 r * m11 r.
Proof.
  intros L N best. destruct (svd_ordered3_factors (Smat rays) _ cutoff 100 (Rlt_le _ _ cutoff_pos) (Smat_at_most rays N)) as (o & E & H).
  destruct (svd_conv (Smat rays) cutoff 100 cutoff_16 ltac:(lia)) as (d & E'). rewrite E' in E. apply some_inj in E. subst o.
  destruct (H d eq_refl) as (q & r & v & -> & F). exists q, r, v. split; [|exact F].
  unfold best. change (isect svd3_try_new rays = Some (Ok (mkPoints [mv (pinv_of q (mkV3 (m00 r) (m11 r) (m22 r)) (mtr v)) (Cvec rays)]))).
  rewrite isect_R by exact L.
  assert (E : svd3_try_new (Smat rays) true true cutoff 100 = Some (mkSVD (Some q) (mkV3 (m00 r) (m11 r) (m22 r)) (Some (mtr v)))) by (unfold svd3_try_new; now rewrite E').
  rewrite (my_pinv_R svd3_try_new _ _ q (mtr v) E eq_refl eq_refl). reflexivity.
Qed.
Lemma C106_full {C} (rays : list (Ray C R)) lam x : (2 <= length rays)%nat -> nonzero_dirs rays -> spread lam rays ->
  2 / 1000 * INR (length rays) <= lam -> (forall y, sum_sq_dist rays x <= sum_sq_dist rays y) ->
  exists x', best_intersection_of_rays (fun x => Some x) (fun x => x) svd3_try_new rays = Some (Ok (mkPoints [x'])) /\
    vdist x' x <= 2 / 1000000 * (INR (length rays) / lam)² * vlen x.
Proof.
  intros L N H G M. destruct (C106_lemma rays lam x L N H G M) as [F|F]; [exfalso|exact F].
  destruct (svd3_of_rays rays L N) as (q & r & v & E & _). rewrite E in F. discriminate.
Qed.
Lemma C107_total {C} (rays : list (Ray C R)) : (2 <= length rays)%nat -> nonzero_dirs rays ->
  exists x, best_intersection_of_rays (fun x => Some x) (fun x => x) svd3_try_new rays = Some (Ok (mkPoints [x])).
Proof. intros L N. destruct (svd3_of_rays rays L N) as (q & r & v & E & _). eexists. exact E. Qed.

(** ** Parallel rays *)
Lemma parallel_min {C} (rays : list (Ray C R)) n : (2 <= length rays)%nat -> n <> vO ->
  Forall (fun r => exists s, s <> 0 /\ ray_direction r = vscl s n) rays ->
  nonzero_dirs rays /\ exists x, vdot (vunit n) x = 0 /\ mv (Smat rays) x = Cvec rays /\
    (forall y, sum_sq_dist rays x <= sum_sq_dist rays y) /\
    (forall y, y <> x -> sum_sq_dist rays y = sum_sq_dist rays x -> vlen x < vlen y).
Proof.
  intros L N P.
  destruct (Smat_parallel rays n N P) as (SM & CV). set (m := vunit n) in *.
  assert (M : vdot m m = 1) by now apply vunit_dot.
  set (len := INR (length rays)) in *.
  assert (Len : 2 <= len) by (unfold len; apply le_INR in L; simpl in L; lra).
  assert (ND : nonzero_dirs rays).
  { eapply Forall_impl; [|exact P]. intros r (t & T0 & ->) Q. apply N.
    rewrite <- (vscl_1 n), <- (Rinv_l t T0), <- vscl_vscl, Q. apply vscl_O. }
  split; [exact ND|].
  set (mean := vscl (/ len) (vsum (map ray_center rays))).
  set (x := vscl (-1) (prjn m mean)).
  assert (Ox : vdot m x = 0) by (unfold x; rewrite vdot_vscl_r, prjn_orth by exact M; ring).
  assert (Ex : mv (Smat rays) x = vscl (- len) x).
  { rewrite SM, prjn_neg by exact Ox. rewrite vscl_vscl. f_equal. ring. }
  assert (SC : mv (Smat rays) x = Cvec rays).
  { rewrite Ex, CV. unfold x, mean. rewrite vscl_vscl.
    replace (prjn m (vscl (/ len) (vsum (map ray_center rays)))) with (vscl (/ len) (prjn m (vsum (map ray_center rays)))) by (unfold prjn; vring).
    rewrite vscl_vscl. replace (- len * -1 * / len) with 1 by (field; lra). apply vscl_1. }
  exists x. split; [exact Ox|]. split; [exact SC|]. split.
  - intros y. rewrite (sum_sq_dist_diff rays x y ND SC). pose proof (sum_sq_sin_nonneg rays (vsub y x) ND). lra.
  - intros y Y Q. rewrite (sum_sq_dist_diff rays x y ND SC) in Q.
    assert (Z : sum_sq_sin rays (vsub y x) = 0) by lra. clear Q.
    rewrite sum_sq_sin_quad, SM in Z by exact ND. set (w := vsub y x) in *.
    assert (W : w <> vO) by (intros H; now apply Y, vsub_eq).
    assert (Z2 : vdot w w = vdot m w * vdot m w).
    { rewrite vdot_vscl_r in Z. unfold prjn in Z. rewrite vdot_vsub_r, vdot_vscl_r, (vdot_comm w m) in Z.
      assert (len * (vdot m w * vdot m w - vdot w w) = 0) by lra.
      apply Rmult_integral in H. lra. }
    assert (Wm : w = vscl (vdot m w) m).
    { apply vsub_eq. apply vdot_self_0. rewrite !vdot_vsub_l, !vdot_vsub_r, !vdot_vscl_l, !vdot_vscl_r, M, (vdot_comm w m). lra. }
    assert (Xw : vdot x w = 0) by (rewrite Wm, vdot_vscl_r, (vdot_comm x m), Ox; ring).
    replace y with (vadd x w) by (unfold w; vring).
    apply sqrt_lt_1; [apply vdot_self_nonneg|apply vdot_self_nonneg|].
    rewrite !vdot_vadd_l, !vdot_vadd_r, (vdot_comm w x), Xw. pose proof (vdot_self_pos w W). lra.
Qed.
(** the three components of the direction in the frame found, from how nearly orthogonal the columns are *)
Lemma small_components a b c e : 0 <= e -> a * a + b * b + c * c = 1 -> a * a <= b * b -> b * b <= c * c ->
  Rabs (a * c) <= e -> Rabs (b * c) <= e -> 1 <= 3 * (c * c) /\ a * a <= 3 * (e * e) /\ b * b <= 3 * (e * e).
Proof.
  intros E S A B H1 H2. split; [lra|].
  assert (K : forall x, Rabs (x * c) <= e -> x * x <= 3 * (e * e)).
  { intros x H. assert (P : x * c * (x * c) <= e * e).
    { rewrite <- (Rabs_pos_eq (x * c * (x * c))) by apply sq_nonneg. rewrite Rabs_mult. apply Rmult_le_compat; try exact H; apply Rabs_pos. }
    replace (x * c * (x * c)) with (x * x * (c * c)) in P by ring. pose proof (sq_nonneg x). assert (x * x * 1 <= x * x * (3 * (c * c))) by (apply Rmult_le_compat_l; lra). lra. }
  split; now apply K.
Qed.
(** the pseudo inverse applied in that frame: [r] maps [(a, b, c)] to zero, [y] is orthogonal to it *)
Lemma parallel_core L a b c e r00 r01 r02 r11 r12 r22 y0 y1 y2 : 2 <= L -> 0 <= e -> e <= 1 / 1000 -> a * a + b * b + c * c = 1 -> a * a <= b * b -> b * b <= c * c ->
  Rabs (a * c) <= 4 * e -> Rabs (b * c) <= 4 * e -> 0 <= r00 -> 0 <= r11 ->
  r00 * r00 = L * L * (1 - a * a) -> r01 * r01 + r11 * r11 = L * L * (1 - b * b) -> r00 * r01 = - (L * L * (a * b)) -> r00 * r02 = - (L * L * (a * c)) ->
  r11 * b + r12 * c = 0 -> r22 * c = 0 -> a * y0 + b * y1 + c * y2 = 0 ->
  1 < r00 /\ 1 < r11 /\ r22 = 0 /\
  let z0 := / r00 * (r00 * y0 + r01 * y1 + r02 * y2) in let z1 := / r11 * (r11 * y1 + r12 * y2) in
  (z0 - y0) * (z0 - y0) + (z1 - y1) * (z1 - y1) + y2 * y2 <= 25 * e * (25 * e) * (y0 * y0 + y1 * y1 + y2 * y2).
Proof.
  intros HL E0 E1 S A B H1 H2 R0 R1 Q00 Q11 Q01 Q02 Z1 Z2 OY.
  destruct (small_components a b c (4 * e)) as (C3 & A3 & B3); try assumption; try lra.
  assert (C0 : c <> 0) by (intros ->; lra).
  assert (EE : e * e <= 1 / 1000000) by nra.
  assert (LL : 4 <= L * L) by nra.
  assert (A1 : a * a <= 1 / 10) by lra. assert (B1 : b * b <= 1 / 10) by lra.
  pose proof (sq_nonneg a) as PA. pose proof (sq_nonneg b) as PB.
  assert (G00 : 36 / 10 <= r00 * r00) by (rewrite Q00; nra).
  assert (H00 : 1 < r00) by nra.
  assert (N00 : r00 <> 0) by lra.
  set (k := / (1 - a * a)). assert (K0 : 0 < 1 - a * a) by lra. assert (K : (1 - a * a) * k = 1) by (unfold k; field; lra).
  assert (K1 : 0 < k) by (unfold k; now apply Rinv_0_lt_compat). assert (K2 : k <= 10 / 9) by nra.
  assert (LLn : L * L <> 0) by lra.
  assert (F01 : / r00 * r01 = - (a * b * k)).
  { apply (Rmult_eq_reg_l (r00 * r00)); [|nra]. replace (r00 * r00 * (/ r00 * r01)) with (r00 * r01) by (field; exact N00). rewrite Q01, Q00.
    replace (L * L * (1 - a * a) * - (a * b * k)) with (- (L * L * (a * b) * ((1 - a * a) * k))) by ring. rewrite K. ring. }
  assert (F02 : / r00 * r02 = - (a * c * k)).
  { apply (Rmult_eq_reg_l (r00 * r00)); [|nra]. replace (r00 * r00 * (/ r00 * r02)) with (r00 * r02) by (field; exact N00). rewrite Q02, Q00.
    replace (L * L * (1 - a * a) * - (a * c * k)) with (- (L * L * (a * c) * ((1 - a * a) * k))) by ring. rewrite K. ring. }
  assert (G01 : r01 * r01 <= L * L * (1 / 10)).
  { apply (Rmult_le_reg_l (r00 * r00)); [lra|]. replace (r00 * r00 * (r01 * r01)) with (r00 * r01 * (r00 * r01)) by ring. rewrite Q01, Q00.
    replace (- (L * L * (a * b)) * - (L * L * (a * b))) with (L * L * (L * L * (a * a * (b * b)))) by ring.
    replace (L * L * (1 - a * a) * (L * L * (1 / 10))) with (L * L * (L * L * ((1 - a * a) * (1 / 10)))) by ring.
    apply Rmult_le_compat_l; [lra|]. apply Rmult_le_compat_l; [lra|]. nra. }
  assert (LB : L * L * (b * b) <= L * L * (1 / 10)) by (apply Rmult_le_compat_l; lra). assert (G11 : 1 < r11 * r11) by lra.
  assert (H11 : 1 < r11) by nra. assert (N11 : r11 <> 0) by lra.
  split; [exact H00|]. split; [exact H11|]. split.
  { apply Rmult_integral in Z2. destruct Z2; [assumption|congruence]. }
  cbv zeta.
  assert (Y2 : y2 = - (a * y0 + b * y1) / c) by (apply (Rmult_eq_reg_l c); [|exact C0]; replace (c * (- (a * y0 + b * y1) / c)) with (- (a * y0 + b * y1)) by (field; exact C0); lra).
  assert (D0 : / r00 * (r00 * y0 + r01 * y1 + r02 * y2) - y0 = a * a * k * y0).
  { replace (/ r00 * (r00 * y0 + r01 * y1 + r02 * y2)) with (y0 + / r00 * r01 * y1 + / r00 * r02 * y2) by (field; exact N00).
    rewrite F01, F02. replace (y0 + - (a * b * k) * y1 + - (a * c * k) * y2 - y0) with (- (a * k) * (a * y0 + b * y1 + c * y2) + a * a * k * y0) by ring. rewrite OY. ring. }
  assert (R12 : r12 = - (r11 * b / c)) by (apply (Rmult_eq_reg_r c); [|exact C0]; replace (- (r11 * b / c) * c) with (- (r11 * b)) by (field; exact C0); lra).
  assert (D1 : / r11 * (r11 * y1 + r12 * y2) - y1 = - (b / c) * y2) by (rewrite R12; field; auto).
  rewrite D0, D1. clear D0 D1 R12 F01 F02 Q00 Q11 Q01 Q02 Z1 Z2 G00 G01 G11.
  assert (BC : b / c * (b / c) <= 1).
  { apply (Rmult_le_reg_r (c * c)); [lra|]. replace (b / c * (b / c) * (c * c)) with (b * b) by (field; exact C0). lra. }
  assert (YY : y2 * y2 <= 288 * (e * e) * (y0 * y0 + y1 * y1)).
  { apply (Rmult_le_reg_r (c * c)); [lra|]. replace (y2 * y2 * (c * c)) with (y2 * c * (y2 * c)) by ring. replace (y2 * c) with (- (a * y0 + b * y1)) by lra.
    replace (- (a * y0 + b * y1) * - (a * y0 + b * y1)) with ((a * a + b * b) * (y0 * y0 + y1 * y1) - (a * y1 - b * y0) * (a * y1 - b * y0)) by ring.
    pose proof (sq_nonneg (a * y1 - b * y0)) as P. pose proof (sq_nonneg y0). pose proof (sq_nonneg y1).
    apply Rle_trans with ((a * a + b * b) * (y0 * y0 + y1 * y1)); [lra|]. replace (288 * (e * e) * (y0 * y0 + y1 * y1) * (c * c)) with (96 * (e * e) * (3 * (c * c)) * (y0 * y0 + y1 * y1)) by ring.
    apply Rmult_le_compat_r; [lra|]. pose proof (sq_nonneg e). nra. }
  assert (AK : a * a * k * (a * a * k) <= e * e).
  { assert (a * a * k <= 54 * (e * e)) by nra. assert (0 <= a * a * k) by (apply Rmult_le_pos; lra). pose proof (sq_nonneg e).
    apply Rle_trans with (54 * (e * e) * (54 * (e * e))); [apply Rmult_le_compat; assumption|]. nra. }
  replace (a * a * k * y0 * (a * a * k * y0)) with (a * a * k * (a * a * k) * (y0 * y0)) by ring.
  replace (- (b / c) * y2 * (- (b / c) * y2)) with (b / c * (b / c) * (y2 * y2)) by ring.
  pose proof (sq_nonneg y0). pose proof (sq_nonneg y1). pose proof (sq_nonneg y2). pose proof (sq_nonneg e).
  assert (T0 : a * a * k * (a * a * k) * (y0 * y0) <= e * e * (y0 * y0)) by (apply Rmult_le_compat_r; lra).
  assert (T1 : b / c * (b / c) * (y2 * y2) <= 1 * (y2 * y2)) by (apply Rmult_le_compat_r; lra).
  replace (25 * e * (25 * e)) with (625 * (e * e)) by ring. set (e2 := e * e) in *. set (s0 := y0 * y0) in *. set (s1 := y1 * y1) in *. set (s2 := y2 * y2) in *.
  clearbody e2 s0 s1 s2. assert (0 <= e2 * s0) by (apply Rmult_le_pos; assumption). assert (0 <= e2 * s1) by (apply Rmult_le_pos; assumption).
  assert (0 <= e2 * s2) by (apply Rmult_le_pos; assumption). lra.
Qed.
Lemma prjn_dot d u w : vdot d d = 1 -> vdot (prjn d u) (prjn d w) = vdot u w - vdot d u * vdot d w.
Proof.
  intros D. unfold prjn. rewrite !vdot_vsub_l, !vdot_vsub_r, !vdot_vscl_l, !vdot_vscl_r, D, (vdot_comm u d). ring.
Qed.
Lemma cols_of_mm s v : mcol0 (mm s v) = mv s (mcol0 v) /\ mcol1 (mm s v) = mv s (mcol1 v) /\ mcol2 (mm s v) = mv s (mcol2 v).
Proof. destruct s, v. repeat split; vring. Qed.
Lemma orthogonal_cols v : orthogonal v -> vdot (mcol0 v) (mcol0 v) = 1 /\ vdot (mcol1 v) (mcol1 v) = 1 /\ vdot (mcol2 v) (mcol2 v) = 1 /\
  vdot (mcol0 v) (mcol1 v) = 0 /\ vdot (mcol0 v) (mcol2 v) = 0 /\ vdot (mcol1 v) (mcol2 v) = 0.
Proof.
  intros (O1 & _). assert (E : forall i j : V3 R, vdot (mv v i) (mv v j) = vdot i j).
  { intros i j. rewrite dot_gram, O1. destruct j. f_equal. vring. }
  assert (C0 : mcol0 v = mv v (mkV3 1 0 0)) by (destruct v; vring). assert (C1 : mcol1 v = mv v (mkV3 0 1 0)) by (destruct v; vring).
  assert (C2 : mcol2 v = mv v (mkV3 0 0 1)) by (destruct v; vring). rewrite C0, C1, C2, !E. repeat split; vring.
Qed.
Lemma mtr_comps v d : mv (mtr v) d = mkV3 (vdot d (mcol0 v)) (vdot d (mcol1 v)) (vdot d (mcol2 v)).
Proof. destruct v, d. vring. Qed.
Lemma abs_scaled l x e : 0 < l -> Rabs (- (l * l * x)) <= e * (l * l) -> Rabs x <= e.
Proof.
  intros L H. assert (P : 0 < l * l) by nra. rewrite Rabs_Ropp, Rabs_mult, (Rabs_pos_eq (l * l)) in H by lra.
  apply (Rmult_le_reg_l (l * l)); lra.
Qed.
Lemma finv_big s : 1 < s -> finv s = / s.
Proof.
  intros H. unfold finv. pose proof cutoff_lt. destruct (Rltb cutoff s) eqn:E; [unfold Rdiv; ring|]. apply Rltb_false in E. lra.
Qed.
Lemma finv_0 : finv 0 = 0.
Proof. unfold finv. pose proof cutoff_pos. destruct (Rltb cutoff 0) eqn:E; [apply Rltb_true in E; lra|reflexivity]. Qed.

Lemma C107_parallel {C} (rays : list (Ray C R)) n : (2 <= length rays)%nat ->
  n <> vO -> Forall (fun r => exists s, s <> 0 /\ ray_direction r = vscl s n) rays ->
  exists x x', best_intersection_of_rays (fun x => Some x) (fun x => x) svd3_try_new rays = Some (Ok (mkPoints [x'])) /\
    (forall y, sum_sq_dist rays x <= sum_sq_dist rays y) /\
    (forall y, y <> x -> sum_sq_dist rays y = sum_sq_dist rays x -> vlen x < vlen y) /\
    vdist x' x <= 25 / 10000000 * vlen x.
Proof.
  intros L N P. destruct (parallel_min rays n L N P) as (ND & x & Ox & SC & M1 & M2).
  destruct (Smat_parallel rays n N P) as (SM & _). pose proof (vunit_dot n N) as DD. set (d := vunit n) in *. clearbody d.
  destruct (svd3_of_rays rays L ND) as (q & r & v & E & Oq & Ov & QR & Z1 & Z2 & Z3 & P0 & P1 & P2 & (B1 & B2 & B3) & N1 & N2).
  exists x. eexists. split; [exact E|]. split; [exact M1|]. split; [exact M2|]. clear M1 M2 E.
  set (l := INR (length rays)) in *. assert (HL : 2 <= l) by (unfold l; apply le_INR in L; simpl in L; lra). clearbody l.
  rewrite <- SC. set (s := Smat rays) in *. clearbody s. clear SC.
  destruct (upper_dots q r Oq Z1 Z2 Z3) as (U0 & U1 & U2 & U3 & U4 & U5). cbv zeta in *. rewrite QR in U0, U1, U2, U3, U4, U5.
  destruct (cols_of_mm s v) as (C0 & C1 & C2). rewrite ?C0, ?C1, ?C2, !SM, !vdot_vscl_l, !vdot_vscl_r, !prjn_dot in U0 by exact DD. rewrite ?C0, ?C1, ?C2, !SM, !vdot_vscl_l, !vdot_vscl_r, !prjn_dot in U1 by exact DD. rewrite ?C0, ?C1, ?C2, !SM, !vdot_vscl_l, !vdot_vscl_r, !prjn_dot in U2 by exact DD. rewrite ?C0, ?C1, ?C2, !SM, !vdot_vscl_l, !vdot_vscl_r, !prjn_dot in U3 by exact DD. rewrite ?C0, ?C1, ?C2, !SM, !vdot_vscl_l, !vdot_vscl_r, !prjn_dot in U4 by exact DD. rewrite ?C0, ?C1, ?C2, !SM, !vdot_vscl_l, !vdot_vscl_r, !prjn_dot in U5 by exact DD.
  clear C0 C1 C2.
  destruct (orthogonal_cols v Ov) as (V0 & V1 & V2 & V3 & V4 & V5). rewrite V0 in U0. rewrite V1 in U1. rewrite V2 in U2. rewrite V3 in U3. rewrite V4 in U4. rewrite V5 in U5.
  clear V0 V1 V2 V3 V4 V5. pose proof (mtr_comps v d) as MC.
  assert (S1 : vdot (mv (mtr v) d) (mv (mtr v) d) = 1) by (rewrite orthogonal_dot; [exact DD|now apply orthogonal_mtr]).
  assert (RZ : mv r (mv (mtr v) d) = vO).
  { rewrite <- (orthogonal_inv_l q (mv r _) Oq), <- (mv_mm q r), QR, mv_mm, orthogonal_inv_r by exact Ov. rewrite SM.
    unfold prjn. rewrite DD. clear. destruct d, q. unfold vO. vring. }
  assert (YO : vdot (mv (mtr v) d) (mv (mtr v) x) = 0) by (rewrite orthogonal_dot; [exact Ox|now apply orthogonal_mtr]).
  rewrite MC in S1, RZ, YO. set (a := vdot d (mcol0 v)) in *. set (b := vdot d (mcol1 v)) in *. set (c := vdot d (mcol2 v)) in *. clear MC. clearbody a b c.
  assert (SX : s = mm (mm q r) (mtr v)) by (rewrite QR, <- mm_assoc; destruct Ov as (_ & ->); now rewrite mm_I_r).
  rewrite SX, !mv_mm. set (y := mv (mtr v) x) in *.
  assert (XY : x = mv v y) by (unfold y; symmetry; now apply orthogonal_inv_r).
  rewrite XY. clearbody y. clear XY SX Ox SM x s QR DD d.
  unfold pinv_of. rewrite mtr_mm, mtr_mtr, mtr_mm, !mv_mm, (orthogonal_inv_l q) by exact Oq.
  unfold vdist. rewrite <- mv_vsub, !orthogonal_len by exact Ov.
  destruct r as [r00 r01 r02 r10 r11 r12 r20 r21 r22]. cbn [m00 m01 m02 m10 m11 m12 m20 m21 m22 vx vy vz] in *. subst r10 r20 r21.
  destruct y as [y0 y1 y2]. pose proof cutoff_pos as CP. pose proof cutoff_lt as CL.
  assert (RZ1 : r11 * b + r12 * c = 0) by (apply (f_equal vy) in RZ; unfold vO in RZ; clear -RZ; ru_spec; lra).
  assert (RZ2 : r22 * c = 0) by (apply (f_equal vz) in RZ; unfold vO in RZ; clear -RZ; ru_spec; lra).
  assert (S2 : a * a + b * b + c * c = 1) by (clear -S1; ru_spec; lra).
  assert (Y2 : a * y0 + b * y1 + c * y2 = 0) by (clear -YO; ru_spec; lra).
  assert (LP : 0 < l) by lra. assert (LL : 0 < l * l) by nra.
  assert (BA : Rabs (a * c) <= 4 * cutoff) by (apply (abs_scaled l); [exact LP|]; eapply Rle_trans; [|exact B2]; right; f_equal; rewrite <- U4; ring).
  assert (BB : Rabs (b * c) <= 4 * cutoff) by (apply (abs_scaled l); [exact LP|]; eapply Rle_trans; [|exact B3]; right; f_equal; rewrite <- U5; ring).
  assert (OA : a * a <= b * b) by (rewrite <- U0, <- U1 in N1; apply (Rmult_le_reg_l (l * l)); lra).
  assert (OB : b * b <= c * c) by (rewrite <- U1, <- U2 in N2; apply (Rmult_le_reg_l (l * l)); lra).
  destruct (parallel_core l a b c cutoff r00 r01 r02 r11 r12 r22 y0 y1 y2) as (G0 & G1 & G2 & G3); try assumption; try lra.
  rewrite G2 in *. rewrite (finv_big r00 G0), (finv_big r11 G1), finv_0. cbv zeta in G3.
  apply Rle_trans with (25 * cutoff * vlen (mkV3 y0 y1 y2)); [|apply Rmult_le_compat_r; [apply vlen_nonneg|lra]].
  apply vlen_le; [|apply Rmult_le_pos; [lra|apply vlen_nonneg]].
  replace (25 * cutoff * vlen (mkV3 y0 y1 y2) * (25 * cutoff * vlen (mkV3 y0 y1 y2))) with (25 * cutoff * (25 * cutoff) * (vlen (mkV3 y0 y1 y2) * vlen (mkV3 y0 y1 y2))) by ring.
  rewrite vlen_sq. eapply Rle_trans; [|eapply Rle_trans; [exact G3|]]; right; unfold mdiag; clear; ru_spec; ring.
Qed.
