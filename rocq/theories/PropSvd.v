(** * PropSvd.v - property theorems C105-C107: the singular value decomposition used by the intersection of rays *)

From Coq Require Import ZArith List Reals Lra Lia.
From Flocq Require Import Core BinarySingleNaN.
From Verif Require Import Scalar Linalg Bundles Householder RayIntersection SymEigen Spec SpecGeom SpecIsect SpecTri SpecSvd RealBase VecLemmas
  IsectBase IsectProofs TriProofs SymEigenProofs6 SymEigenProofs7 SymEigenProofs9 SymEigenProofs10 PropIsect PropTri.
Import ListNotations.
Local Open Scope R_scope.

(** C105: the decomposition of any matrix, with the tolerance [eps], runs without a panic.
    When it converges, the factors are orthogonal, the values are not negative,
    and the product is this close to the matrix: without any assumption a multiple of the
    square root of [eps], for a matrix which is not nearly singular a multiple of [eps]. *)
Theorem C105_decomposition m k eps niter : 0 <= eps -> at_most k m ->
  exists r, svd_ordered3 m true true eps niter = Some r /\ forall d, r = Some d ->
    decomposes (8 * sqrt eps * k) m d /\
    forall lam, 0 < lam -> at_least lam m -> 40 * eps * (k * k) <= lam * lam -> decomposes (13 * eps * (k * k) / lam) m d.
Proof. exact (svd_ordered3_spec m k eps niter). Qed.
Print Assumptions C105_decomposition.

(** C105: it converges for every matrix, when the tolerance is at least 1e-16 and at least
    29 iterations are allowed (the code passes 1e-7 and 100). *)
Theorem C105_converges m eps niter : 1 / 10 ^ 16 <= eps -> (29 <= niter)%nat ->
  exists d, svd_ordered3 m true true eps niter = Some (Some d).
Proof. exact (svd_conv m eps niter). Qed.
Print Assumptions C105_converges.

(** C105: it converges at once for a matrix with orthogonal columns. *)
Theorem C105_orthogonal_columns m eps niter : 0 <= eps ->
  vdot (mcol0 m) (mcol1 m) = 0 -> vdot (mcol0 m) (mcol2 m) = 0 -> vdot (mcol1 m) (mcol2 m) = 0 ->
  exists d, svd_ordered3 m true true eps niter = Some (Some d).
Proof. exact (svd_columns m eps niter). Qed.
Print Assumptions C105_orthogonal_columns.

(** C106: with this decomposition in place of the oracle, the intersection of [n] rays
    spread by [lam] is the least squares point up to 2e-6 (n / lam)^2 of its distance
    from the origin. *)
Theorem C106_least_squares_with_svd {C} (rays : list (Ray C R)) lam x : (2 <= length rays)%nat -> nonzero_dirs rays -> spread lam rays ->
  2 / 1000 * INR (length rays) <= lam -> (forall y, sum_sq_dist rays x <= sum_sq_dist rays y) ->
  exists x', best_intersection_of_rays (fun x => Some x) (fun x => x) svd3_try_new rays = Some (Ok (mkPoints [x'])) /\
    vdist x' x <= 2 / 1000000 * (INR (length rays) / lam)² * vlen x.
Proof. exact (C106_full rays lam x). Qed.
Print Assumptions C106_least_squares_with_svd.

(** C107: at least two rays with nonzero directions always give one point, never an error
    or a panic, however they lie. *)
Theorem C107_always_a_point {C} (rays : list (Ray C R)) : (2 <= length rays)%nat -> nonzero_dirs rays ->
  exists x, best_intersection_of_rays (fun x => Some x) (fun x => x) svd3_try_new rays = Some (Ok (mkPoints [x])).
Proof. exact (C107_total rays). Qed.
Print Assumptions C107_always_a_point.

(** C107: for parallel rays it is, up to 2.5e-6 of its distance from the origin, the point
    closest to the origin among those with the least sum of squared distances. *)
Theorem C107_parallel_rays {C} (rays : list (Ray C R)) n : (2 <= length rays)%nat ->
  n <> vO -> Forall (fun r => exists s, s <> 0 /\ ray_direction r = vscl s n) rays ->
  exists x x', best_intersection_of_rays (fun x => Some x) (fun x => x) svd3_try_new rays = Some (Ok (mkPoints [x'])) /\
    (forall y, sum_sq_dist rays x <= sum_sq_dist rays y) /\
    (forall y, y <> x -> sum_sq_dist rays y = sum_sq_dist rays x -> vlen x < vlen y) /\
    vdist x' x <= 25 / 10000000 * vlen x.
Proof. exact (C107_parallel rays n). Qed.
Print Assumptions C107_parallel_rays.

(** ** Cases *)
(** columns of length 1, 2, 3, which have to be put in order *)
Definition ex_svd_m : M33 R := mkM33 0 2 0 1 0 0 0 0 (-3).
Example C105_case : exists d, svd_ordered3 ex_svd_m true true (1 / 10 ^ 7) 100 = Some (Some d) /\ decomposes (117 / 10 ^ 7) ex_svd_m d.
Proof.
  destruct (C105_orthogonal_columns ex_svd_m (1 / 10 ^ 7) 100) as (d & E); [lra|unfold ex_svd_m; ru_spec; ring..|].
  exists d. split; [exact E|].
  assert (G : forall v, vdot (mv ex_svd_m v) (mv ex_svd_m v) = vx v * vx v + 4 * (vy v * vy v) + 9 * (vz v * vz v)) by (intros [x y z]; unfold ex_svd_m; ru_spec; ring).
  destruct (C105_decomposition ex_svd_m 3 (1 / 10 ^ 7) 100) as (r & E' & H); [lra| |].
  - intros v. apply Rsqr_incr_0_var; [|apply Rmult_le_pos; [lra|apply vlen_nonneg]]. unfold Rsqr.
    replace (3 * vlen v * (3 * vlen v)) with (9 * (vlen v * vlen v)) by ring. rewrite !vlen_sq, G. destruct v; ru_spec; nra.
  - rewrite E in E'. injection E' as <-. destruct (H d eq_refl) as (_ & H2).
    replace (117 / 10 ^ 7) with (13 * (1 / 10 ^ 7) * (3 * 3) / 1) by lra. apply H2; [lra| |lra].
    intros v. rewrite Rmult_1_l. apply Rsqr_incr_0_var; [|apply vlen_nonneg]. unfold Rsqr. rewrite !vlen_sq, G. destruct v; ru_spec; nra.
Qed.
(** the rays of C39_case *)
Example ex_r12_min : forall y, sum_sq_dist [ex_r1; ex_r2] (mkV3 3 0 (1/2)) <= sum_sq_dist [ex_r1; ex_r2] y.
Proof.
  intros [x y z]. unfold sum_sq_dist, rsum, line_dist2. cbn [map fold_right ex_r1 ex_r2 ray_center ray_direction]. ru_spec.
  pose proof (Rle_0_sqr (x - 3)). pose proof (Rle_0_sqr y). pose proof (Rle_0_sqr (2 * z - 1)). unfold Rsqr in *.
  match goal with |- ?l <= _ => replace l with (1/2) by field end.
  match goal with |- _ <= ?r => replace r with (y * y + z * z + ((x - 3) * (x - 3) + (z - 1) * (z - 1))) by field end. lra.
Qed.
Example C106_case : exists x', best_intersection_of_rays (fun x => Some x) (fun x => x) svd3_try_new [ex_r1; ex_r2] = Some (Ok (mkPoints [x'])) /\
  vdist x' (mkV3 3 0 (1/2)) <= 8 / 1000000 * vlen (mkV3 3 0 (1/2)).
Proof.
  destruct (C106_least_squares_with_svd [ex_r1; ex_r2] 1 (mkV3 3 0 (1/2))) as (x' & E & D).
  - simpl. lia.
  - exact ex_r12_dirs.
  - exact ex_r12_spread.
  - simpl. lra.
  - exact ex_r12_min.
  - exists x'. split; [exact E|]. eapply Rle_trans; [exact D|]. apply Rmult_le_compat_r; [apply vlen_nonneg|].
    unfold Rsqr. cbn [length INR]. lra.
Qed.
(** two rays along (1, 2, 2), in opposite directions *)
Definition ex_p1 : Ray WorldFrame R := mkRay (mkV3 3 0 0) (mkV3 1 2 2).
Definition ex_p2 : Ray WorldFrame R := mkRay (mkV3 0 5 0) (mkV3 (-2) (-4) (-4)).
Example C107_case : exists x, best_intersection_of_rays (fun x => Some x) (fun x => x) svd3_try_new [ex_p1; ex_p2] = Some (Ok (mkPoints [x])) /\
  exists y, (forall z, sum_sq_dist [ex_p1; ex_p2] y <= sum_sq_dist [ex_p1; ex_p2] z) /\ vdist x y <= 25 / 10000000 * vlen y.
Proof.
  destruct (C107_parallel_rays [ex_p1; ex_p2] (mkV3 1 2 2)) as (y & x & E & M & _ & D).
  - simpl. lia.
  - intros H. injection H. lra.
  - apply Forall_cons; [exists 1|apply Forall_cons; [exists (-2)|apply Forall_nil]]; (split; [lra|]); apply V3_eq; unfold ex_p1, ex_p2; cbn [ray_direction]; ru_spec; ring.
  - exists x. split; [exact E|]. exists y. split; [exact M|exact D].
Qed.

(** A test: the model run in double precision on a full matrix.  It converges, and the
    product of the factors agrees with the matrix up to 1e-7, but not up to 1e-10. *)
Definition ex_f (x : f64) : f64 := x.
Local Hint Extern 0 (Ops f64) => exact (f64_ops ex_f ex_f) : typeclass_instances.
Local Notation lit m e := (@o_lit f64 (f64_ops ex_f ex_f) m%Z e%Z).
Definition ex_m64 : M33 f64 :=
  mkM33 (lit (-3) 0) (lit 1 0) (lit 1 (-1)) (lit 1 0) (lit (-5) (-1)) (lit 3 (-2)) (lit 1 (-1)) (lit 3 (-2)) (lit (-7) (-2)).
Definition ex_agree (tol : f64) (m : M33 f64) (d : option (SVD f64)) : bool :=
  match d with
  | Some (mkSVD (Some u) s (Some vt)) =>
    let z := lit 0 0 in
    let p := m33_mul (m33_mul u (mkM33 (vx s) z z z (vy s) z z z (vz s))) vt in
    forallb (fun e => o_ltb (o_abs (o_sub (fst e) (snd e))) tol)
      [(m00 p, m00 m); (m01 p, m01 m); (m02 p, m02 m); (m10 p, m10 m); (m11 p, m11 m); (m12 p, m12 m); (m20 p, m20 m); (m21 p, m21 m); (m22 p, m22 m)]
  | _ => false
  end.
Example C105_test64 :
  ex_agree (lit_1em7 (F := f64)) ex_m64 (svd3_try_new ex_m64 true true (lit_1em7 (F := f64)) 100) = true /\
  ex_agree (lit 1 (-33)) ex_m64 (svd3_try_new ex_m64 true true (lit_1em7 (F := f64)) 100) = false.
Proof. split; vm_compute; reflexivity. Qed.
