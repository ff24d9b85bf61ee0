(** * SpectralProofs.v - every symmetric 3x3 matrix has a singular value
    decomposition, so the assumption on the SVD routine can be met *)

From Coq Require Import Reals List Arith Lia Lra Psatz Bool Ranalysis.
From Verif Require Import Scalar Linalg Bundles RayIntersection Spec SpecIsect RealBase VecLemmas IsectBase IsectProofs.
Import ListNotations.
Local Open Scope R_scope.

(** A cubic has a root. *)
Lemma cubic_root t c d : exists l, l * l * l - t * (l * l) + c * l - d = 0.
Proof.
  set (f := fun l => l * l * l - t * (l * l) + c * l - d).
  assert (CF : continuity f) by (unfold f; reg).
  set (B := 1 + Rabs t + Rabs c + Rabs d).
  pose proof (Rabs_pos t). pose proof (Rabs_pos c). pose proof (Rabs_pos d).
  pose proof (Rle_abs t). pose proof (Rle_abs c). pose proof (Rle_abs d).
  pose proof (Rle_abs (- t)). pose proof (Rle_abs (- c)). pose proof (Rle_abs (- d)).
  rewrite Rabs_Ropp in *.
  assert (B1 : 1 <= B) by (unfold B; lra).
  assert (BB : B <= B * B) by nra.
  assert (B3 : B * B * B = B * B + Rabs t * (B * B) + Rabs c * (B * B) + Rabs d * (B * B)) by (unfold B at 3; ring).
  assert (Rabs c * B <= Rabs c * (B * B)) by nra.
  assert (Rabs d <= Rabs d * (B * B)) by nra.
  assert (T1 : t * (B * B) <= Rabs t * (B * B)) by nra.
  assert (T2 : - t * (B * B) <= Rabs t * (B * B)) by nra.
  assert (C1 : - c * B <= Rabs c * B) by nra.
  assert (FB : 0 < f B). { unfold f. rewrite B3. lra. }
  assert (FA : f (- B) < 0).
  { unfold f. replace (- B * - B * - B - t * (- B * - B) + c * - B - d) with (- (B * B * B) - t * (B * B) - c * B - d) by ring.
    rewrite B3. lra. }
  destruct (IVT f (- B) B CF ltac:(lra) FA FB) as (z & _ & Z). exists z. exact Z.
Qed.

Definition mshift (m : M33 R) (l : R) : M33 R :=
  mkM33 (m00 m - l) (m01 m) (m02 m) (m10 m) (m11 m - l) (m12 m) (m20 m) (m21 m) (m22 m - l).
Lemma mshift_mv m l v : mv (mshift m l) v = vsub (mv m v) (vscl l v).
Proof. destruct m, v. unfold mshift. apply V3_eq; ru_spec; ring. Qed.
Lemma eigenvalue m : exists l, mdet (mshift m l) = 0.
Proof.
  destruct m as [a b c d e f g h i].
  destruct (cubic_root (a + e + i) (a * e - b * d + a * i - c * g + e * i - f * h)
    (mdet (mkM33 a b c d e f g h i))) as (l & H).
  exists l. unfold mshift. ru_spec. rewrite <- Ropp_0, <- H. ring.
Qed.

(** A singular matrix has a kernel. *)
Lemma perp_exists r : exists v, v <> vO /\ vdot r v = 0.
Proof.
  destruct r as [a b c]. destruct (Req_EM_T a 0) as [->|A].
  - exists E1. split; [unfold E1, vO; intros Q; apply V3_inv in Q; lra|unfold E1; ru_spec; ring].
  - exists (mkV3 (- b) a 0). split; [unfold vO; intros Q; apply V3_inv in Q; lra|ru_spec; ring].
Qed.
Lemma mv_rows m v : mv m v = mkV3 (vdot (mrow0 m) v) (vdot (mrow1 m) v) (vdot (mrow2 m) v).
Proof. reflexivity. Qed.
Lemma parallel_dot a b v : a <> vO -> vcross a b = vO -> vdot a v = 0 -> vdot b v = 0.
Proof.
  intros A P H. pose proof (vcross_vcross a a b) as Q. rewrite P in Q.
  replace (vcross a vO) with vO in Q by vring.
  apply (f_equal (vdot v)) in Q. rewrite vdot_O_r, vdot_vsub_r, !vdot_vscl_r, (vdot_comm v a), H, (vdot_comm v b) in Q.
  pose proof (vdot_self_pos a A). nra.
Qed.
Lemma kernel m : mdet m = 0 -> exists v, v <> vO /\ mv m v = vO.
Proof.
  intros D. set (a := mrow0 m). set (b := mrow1 m). set (c := mrow2 m).
  assert (T : vdot a (vcross b c) = 0).
  { rewrite <- D. unfold a, b, c. destruct m. ru_spec. ring. }
  destruct (V3_dec (vcross b c) vO) as [P1|P1].
  2:{ exists (vcross b c). split; [exact P1|]. rewrite mv_rows. fold a b c.
      rewrite T, vdot_vcross_l, vdot_vcross_r. reflexivity. }
  destruct (V3_dec (vcross a b) vO) as [P2|P2].
  2:{ exists (vcross a b). split; [exact P2|]. rewrite mv_rows. fold a b c.
      rewrite vdot_vcross_l, vdot_vcross_r. replace (vdot c (vcross a b)) with (vdot a (vcross b c)) by vring. now rewrite T. }
  destruct (V3_dec (vcross a c) vO) as [P3|P3].
  2:{ exists (vcross a c). split; [exact P3|]. rewrite mv_rows. fold a b c.
      rewrite vdot_vcross_l, vdot_vcross_r. replace (vdot b (vcross a c)) with (- vdot a (vcross b c)) by vring.
      rewrite T, Ropp_0. reflexivity. }
  destruct (V3_dec a vO) as [A|A]; [destruct (V3_dec b vO) as [B|B]|].
  - destruct (perp_exists c) as (v & V & W). exists v. split; [exact V|]. rewrite mv_rows. fold a b c.
    rewrite A, B, W, vdot_O_l. reflexivity.
  - destruct (perp_exists b) as (v & V & W). exists v. split; [exact V|]. rewrite mv_rows. fold a b c.
    rewrite A, W, vdot_O_l, (parallel_dot b c v B P1 W). reflexivity.
  - destruct (perp_exists a) as (v & V & W). exists v. split; [exact V|]. rewrite mv_rows. fold a b c.
    rewrite W, (parallel_dot a b v A P2 W), (parallel_dot a c v A P3 W). reflexivity.
Qed.
Lemma unit_eigenvector m : exists l v, vdot v v = 1 /\ mv m v = vscl l v.
Proof.
  destruct (eigenvalue m) as (l & D). destruct (kernel _ D) as (v & V & K).
  exists l, (vunit v). split; [now apply vunit_dot|].
  rewrite mshift_mv in K. apply vsub_eq in K. unfold vunit. rewrite mv_vscl, K, !vscl_vscl. f_equal. ring.
Qed.

(** Orthonormal bases. *)
Definition mcols (a b c : V3 R) : M33 R := mkM33 (vx a) (vx b) (vx c) (vy a) (vy b) (vy c) (vz a) (vz b) (vz c).
Lemma mcols_orthogonal a b c : vdot a a = 1 -> vdot b b = 1 -> vdot c c = 1 ->
  vdot a b = 0 -> vdot a c = 0 -> vdot b c = 0 -> orthogonal (mcols a b c).
Proof.
  intros. apply orthogonal_left. apply M33_eq; unfold mm, mtr, mcols, mI; cbn -[vdot];
  unfold mrow0, mrow1, mrow2, mcol0, mcol1, mcol2; cbn -[vdot];
  rewrite <- ?(vdot_comm a b); unfold vdot in *; cbn; lra.
Qed.
Lemma second_axis e : vdot e e = 1 -> exists f, vdot f f = 1 /\ vdot e f = 0.
Proof.
  intros E. destruct (perp_exists e) as (v & V & P). exists (vunit v). split; [now apply vunit_dot|].
  unfold vunit. rewrite vdot_vscl_r, P. ring.
Qed.
Lemma third_axis e f : vdot e e = 1 -> vdot f f = 1 -> vdot e f = 0 ->
  vdot (vcross e f) (vcross e f) = 1 /\ vdot e (vcross e f) = 0 /\ vdot f (vcross e f) = 0.
Proof.
  intros E F P. split; [rewrite lagrange, E, F, P; ring|]. split; [apply vdot_vcross_l|apply vdot_vcross_r].
Qed.
Lemma expand_mv a b c v : mv (mcols a b c) v = vadd (vscl (vx v) a) (vadd (vscl (vy v) b) (vscl (vz v) c)).
Proof. unfold mcols. vring. Qed.
Lemma expand a b c v : orthogonal (mcols a b c) ->
  v = vadd (vscl (vdot a v) a) (vadd (vscl (vdot b v) b) (vscl (vdot c v) c)).
Proof.
  intros O. rewrite <- (orthogonal_inv_r _ v O) at 1. rewrite expand_mv. reflexivity.
Qed.

(** Eigenvectors of a symmetric 2x2 matrix. *)
Lemma eig2 a b d : exists x y mu, x * x + y * y = 1 /\ a * x + b * y = mu * x /\ b * x + d * y = mu * y.
Proof.
  destruct (Req_EM_T b 0) as [->|B].
  - exists 1, 0, a. repeat split; ring.
  - set (r := sqrt ((a - d) * (a - d) + 4 * (b * b))).
    assert (R2 : r * r = (a - d) * (a - d) + 4 * (b * b)).
    { apply sqrt_sqrt. pose proof (Rle_0_sqr (a - d)). pose proof (Rle_0_sqr b). unfold Rsqr in *. lra. }
    set (mu := (a + d + r) / 2). set (w := mu - a).
    assert (Q : b * b + d * w = mu * w) by (unfold w, mu; nra).
    assert (P : 0 < b * b + w * w).
    { assert (0 < b * b) by (pose proof (Rle_0_sqr b); unfold Rsqr in *; nra). pose proof (Rle_0_sqr w). unfold Rsqr in *. lra. }
    set (n := sqrt (b * b + w * w)). assert (N : 0 < n) by now apply sqrt_lt_R0.
    assert (NN : n * n = b * b + w * w) by (apply sqrt_sqrt; lra).
    exists (b / n), (w / n), mu. split; [|split].
    + replace (b / n * (b / n) + w / n * (w / n)) with ((b * b + w * w) / (n * n)) by (field; lra). rewrite <- NN. field. lra.
    + unfold w. field. lra.
    + replace (b * (b / n) + d * (w / n)) with ((b * b + d * w) / n) by (field; lra). rewrite Q. field. lra.
Qed.

Lemma sym_dot m a b : mtr m = m -> vdot a (mv m b) = vdot (mv m a) b.
Proof. intros S. rewrite vdot_mv, S. reflexivity. Qed.

Lemma spectral m : mtr m = m -> exists q l, orthogonal q /\ m = mm (mm q (mdiag l)) (mtr q).
Proof.
  intros S. destruct (unit_eigenvector m) as (l1 & e & E & ME).
  destruct (second_axis e E) as (f & F & EF). destruct (third_axis e f E F EF) as (G & EG & FG).
  set (g := vcross e f) in *.
  assert (O : orthogonal (mcols e f g)) by now apply mcols_orthogonal.
  destruct (eig2 (vdot f (mv m f)) (vdot f (mv m g)) (vdot g (mv m g))) as (x & y & mu & N & X & Y).
  set (f' := vadd (vscl x f) (vscl y g)).
  assert (GF : vdot g f = 0) by (rewrite vdot_comm; exact FG).
  assert (EF' : vdot e f' = 0) by (unfold f'; rewrite vdot_vadd_r, !vdot_vscl_r, EF, EG; ring).
  assert (F' : vdot f' f' = 1).
  { unfold f'. rewrite !vdot_vadd_l, !vdot_vadd_r, !vdot_vscl_l, !vdot_vscl_r, F, G, FG, GF. lra. }
  assert (MF' : mv m f' = vscl mu f').
  { rewrite (expand e f g (mv m f') O).
    assert (C1 : vdot e (mv m f') = 0) by (rewrite (sym_dot m) by exact S; rewrite ME, vdot_vscl_l, EF'; ring).
    assert (C2 : vdot f (mv m f') = mu * x).
    { unfold f'. rewrite mv_vadd, !mv_vscl, vdot_vadd_r, !vdot_vscl_r. lra. }
    assert (C3 : vdot g (mv m f') = mu * y).
    { unfold f'. rewrite mv_vadd, !mv_vscl, vdot_vadd_r, !vdot_vscl_r.
      replace (vdot g (mv m f)) with (vdot f (mv m g)); [lra|]. rewrite (sym_dot m f) by exact S. apply vdot_comm. }
    rewrite C1, C2, C3. unfold f'. vring. }
  destruct (third_axis e f' E F' EF') as (G' & EG' & FG'). set (g' := vcross e f') in *.
  assert (O' : orthogonal (mcols e f' g')) by now apply mcols_orthogonal.
  assert (MG' : mv m g' = vscl (vdot g' (mv m g')) g').
  { rewrite (expand e f' g' (mv m g') O') at 1.
    rewrite (sym_dot m e), (sym_dot m f') by exact S. rewrite ME, MF', !vdot_vscl_l, EG', FG'. 
    generalize (vdot g' (mv m g')). vring. }
  set (l3 := vdot g' (mv m g')) in *. clearbody l3 g'.
  exists (mcols e f' g'), (mkV3 l1 mu l3). split; [exact O'|].
  apply mv_ext. intros v. rewrite !mv_mm, mdiag_mv. cbn [vx vy vz].
  transitivity (mv m (mv (mcols e f' g') (mv (mtr (mcols e f' g')) v))); [now rewrite orthogonal_inv_r by exact O'|].
  generalize (mv (mtr (mcols e f' g')) v). intros w. rewrite !expand_mv, !mv_vadd, !mv_vscl, ME, MF', MG'. cbn [vx vy vz].
  clear. vring.
Qed.

Definition sgn (x : R) : R := if Rlt_dec x 0 then -1 else 1.
Lemma sgn_abs x : sgn x * Rabs x = x.
Proof. unfold sgn. destruct (Rlt_dec x 0); [rewrite Rabs_left by lra|rewrite Rabs_pos_eq by lra]; ring. Qed.
Lemma sgn_sq x : sgn x * sgn x = 1. Proof. unfold sgn. destruct (Rlt_dec x 0); ring. Qed.
Lemma mdiag_mm a b : mm (mdiag a) (mdiag b) = mdiag (mkV3 (vx a * vx b) (vy a * vy b) (vz a * vz b)).
Proof. destruct a, b. unfold mdiag. apply M33_eq; ru_spec; ring. Qed.

Lemma svd_exists m : mtr m = m -> exists u s vt, is_svd m u s vt.
Proof.
  intros S. destruct (spectral m S) as (q & [a b c] & O & M).
  set (sg := mkV3 (sgn a) (sgn b) (sgn c)).
  exists (mm q (mdiag sg)), (mkV3 (Rabs a) (Rabs b) (Rabs c)), (mtr q).
  assert (OS : orthogonal (mdiag sg)).
  { apply orthogonal_left. rewrite mdiag_mtr, mdiag_mm. unfold sg; cbn [vx vy vz]. rewrite !sgn_sq. reflexivity. }
  split; [now apply orthogonal_mm|]. split; [now apply orthogonal_mtr|].
  cbn [vx vy vz]. do 3 (split; [apply Rabs_pos|]).
  rewrite M. f_equal. rewrite <- mm_assoc. f_equal. rewrite mdiag_mm. unfold sg; cbn [vx vy vz]. now rewrite !sgn_abs.
Qed.

Lemma M33_dec (a b : M33 R) : {a = b} + {a <> b}.
Proof.
  destruct a as [a0 a1 a2 a3 a4 a5 a6 a7 a8], b as [b0 b1 b2 b3 b4 b5 b6 b7 b8].
  destruct (Req_EM_T a0 b0); [|right; congruence]. destruct (Req_EM_T a1 b1); [|right; congruence].
  destruct (Req_EM_T a2 b2); [|right; congruence]. destruct (Req_EM_T a3 b3); [|right; congruence].
  destruct (Req_EM_T a4 b4); [|right; congruence]. destruct (Req_EM_T a5 b5); [|right; congruence].
  destruct (Req_EM_T a6 b6); [|right; congruence]. destruct (Req_EM_T a7 b7); [|right; congruence].
  destruct (Req_EM_T a8 b8); [|right; congruence]. left; congruence.
Qed.

(** For every list of rays there is a sound routine which does not fail on it. *)
Lemma C62_lemma {C} (rays : list (Ray C R)) : exists svd, svd_sound svd /\
  best_intersection_of_rays (fun x => Some x) (fun x => x) svd rays <> Some (Err SvdFailed).
Proof.
  destruct (svd_exists (Smat rays) (Smat_sym rays)) as (u & s & vt & D).
  exists (fun m _ _ _ _ => if M33_dec m (Smat rays) then Some (mkSVD (Some u) s (Some vt)) else None).
  split.
  - intros m eps n d. destruct (M33_dec m (Smat rays)) as [->|]; [|discriminate]. intros Q. injection Q as <-.
    now exists u, vt.
  - destruct (Nat.lt_ge_cases (length rays) 2) as [L|L].
    + now rewrite isect_few by exact L.
    + match goal with |- best_intersection_of_rays _ _ ?svd _ <> _ => change (isect svd rays <> Some (Err SvdFailed)) end.
      rewrite isect_R by exact L. rewrite (my_pinv_R _ _ (mkSVD (Some u) s (Some vt)) u vt).
      * discriminate.
      * cbv beta. destruct (M33_dec (Smat rays) (Smat rays)); [reflexivity|congruence].
      * reflexivity.
      * reflexivity.
Qed.

Lemma C42b_lemma :
  ~ (forall svd (r1 r2 : Ray WorldFrame R) x, svd_sound svd ->
       (forall y, (exists s, y = vadd (ray_center r1) (vscl s (ray_direction r1))) /\
                  (exists s, y = vadd (ray_center r2) (vscl s (ray_direction r2))) <-> y = x) ->
       let best := best_intersection_of_rays (fun x => Some x) (fun x => x) svd [r1; r2] in
       best <> Some (Err SvdFailed) -> best = Some (Ok (mkPoints [x]))).
Proof.
  intros H.
  set (X := mkV3 0 0 1). set (d := mkV3 1 0 10000). set (d' := mkV3 (- (1)) 0 10000).
  set (r1 := mkRay (Coords := WorldFrame) (vadd X (vscl 0 d)) d).
  set (r2 := mkRay (Coords := WorldFrame) (vadd X (vscl 0 d')) d').
  destruct (C62_lemma [r1; r2]) as (svd & HS & NF).
  destruct (C42_lemma svd X 1 10000 0 0 HS) as (A & B).
  - lra.
  - pose proof cutoff_gt. lra.
  - unfold X; cbn; lra.
  - destruct (B NF) as (E & Q). specialize (H svd r1 r2 X HS A NF). cbv zeta in H.
    fold r1 r2 in E. unfold r1, r2, d, d' in H. rewrite E in H. apply Q.
    exact (f_equal (fun r => match r with Some (Ok p) => match pts_data p with [a] => a | _ => X end | _ => X end) H).
Qed.
