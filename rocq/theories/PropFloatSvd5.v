(** * PropFloatSvd5.v - property theorems C116 - C118: the decomposition in double precision at any condition number, and the intersection of rays without a condition on their directions *)

From Coq Require Import ZArith List Reals Lra Lia Psatz.
From Flocq Require Import Core BinarySingleNaN.
From Verif Require Import Scalar Linalg Bundles Householder RayIntersection Convert SymEigen Spec SpecIsect SpecTri SpecSvd SpecFloatErr SpecFloatIsect SpecFloatSvd SpecFloatSvd2
  RealBase VecLemmas TriProofs IsectProofs FloatSvdProofs22 FloatSvdProofs25 FloatSvdProofs26 PropFloatIsect PropSvd PropFloatSvd.
Import ListNotations.
Local Open Scope R_scope.

Section F64.
Variables fsin fcos : f64 -> f64.
Local Hint Extern 0 (Ops f64) => exact (f64_ops fsin fcos) : typeclass_instances.

(** C116: C113 with no bound of 300 on the condition number.  The decomposition converges on
    every finite matrix whose two smaller singular values are not both small, singular ones
    included. *)
Theorem C116_svd_converges (m : M33 f64) k : mat_finite m -> at_most k (mreal m) ->
  bpow radix2 (- (400)) <= k <= bpow radix2 400 -> pairs_at_least (49 / 100 * k ^ 2) (mreal m) ->
  exists d fu fvt, svd_ordered3 m true true lit_1em7 100 = Some (Some d) /\ svd_u d = Some fu /\ svd_vt d = Some fvt.
Proof. exact (C116b_lemma fsin fcos m k). Qed.

(** C116: the factors are those of a matrix within 2.9e-6 times the norm, whatever the
    condition number up to 1e9. *)
Theorem C116_svd_backward (m : M33 f64) k lam : mat_finite m -> at_most k (mreal m) -> at_least lam (mreal m) -> 0 < lam -> k <= 10 ^ 9 * lam ->
  bpow radix2 (- (400)) <= k <= bpow radix2 400 -> pairs_at_least (49 / 100 * k ^ 2) (mreal m) ->
  exists d, svd_ordered3 m true true lit_1em7 100 = Some (Some d) /\ decomposes64 (29 / 10 ^ 7 * k) (1 / 10 ^ 11) m d.
Proof. exact (C116a_lemma fsin fcos m k lam). Qed.
End F64.
Print Assumptions C116_svd_converges.
Print Assumptions C116_svd_backward.

Section IEEE.
Variables (prec emax : Z) (Hp : Prec_gt_0 prec) (He : Prec_lt_emax prec emax).
Variables fsin fcos : binary_float prec emax -> binary_float prec emax.
Variables gsin gcos : f64 -> f64.
Local Hint Extern 0 (Ops (binary_float prec emax)) =>
  exact (B_ops prec emax Hp He fsin fcos) : typeclass_instances.
Local Hint Extern 0 (Ops f64) => exact (f64_ops gsin gcos) : typeclass_instances.
Local Notation u := (bpow radix2 (- prec)).
Local Notation v := (bpow radix2 (- (53))).

(** C117: two or more rays of moderate size, in any directions, parallel ones included: the
    intersection is one point, never an error and never a panic.  Nothing is said of its
    coordinates, which for parallel rays need not be finite. *)
Theorem C117_intersection_total {C} (E : Z) (to64 : binary_float prec emax -> option f64) (from64 : f64 -> binary_float prec emax) (M : R) (rays : list (Ray C (binary_float prec emax))) :
  (24 <= prec <= 53)%Z -> (emax <= 1024)%Z -> (0 <= E)%Z -> (2 * E + 34 <= emax)%Z ->
  exact_to64 to64 -> rounds_from64 from64 ->
  let n := INR (length rays) in
  1 <= M -> n * M <= bpow radix2 E -> n <= 2 ^ 36 -> (2 <= length rays)%nat -> Forall (ray_sized E M) rays ->
  exists x, best_intersection_of_rays to64 from64 svd3_try_new rays = Some (Ok (mkPoints [x])).
Proof. exact (C117_lemma prec emax Hp He fsin fcos gsin gcos E to64 from64 M rays). Qed.

(** C118: the error of the intersection in relation to the spread of the directions, to the
    first power; the spread may be as small as 6e-6 n. *)
Theorem C118_intersection_error {C} (E : Z) (to64 : binary_float prec emax -> option f64) (from64 : f64 -> binary_float prec emax) om (M : R) (rays : list (Ray C (binary_float prec emax))) lam x :
  (24 <= prec <= 53)%Z -> (emax <= 1024)%Z -> (0 <= E)%Z -> (2 * E + 34 <= emax)%Z ->
  exact_to64 to64 -> rounds_from64 from64 -> u <= om -> om <= / 16000000 -> 1 / 10 ^ 11 <= om ->
  let n := INR (length rays) in
  1 <= M -> n * M <= bpow radix2 E -> n <= 2 ^ 36 -> (2 <= length rays)%nat -> Forall (ray_sized E M) rays ->
  let eta := 3 / 10 ^ 6 * n + 3 * n * (25 * u + (n + 1) * v) in
  2 * eta <= lam -> spread lam (map ray_real rays) ->
  (forall y, sum_sq_dist (map ray_real rays) x <= sum_sq_dist (map ray_real rays) y) ->
  exists x', best_intersection_of_rays to64 from64 svd3_try_new rays = Some (Ok (mkPoints [x'])) /\ vec_finite x' /\
    vdist (vreal x') x <= (eta * vlen x + n * M * (810 * om + 6 * (n + 1) * v)) / (lam - eta).
Proof. exact (C118_lemma prec emax Hp He fsin fcos gsin gcos E to64 from64 om M rays lam x). Qed.
End IEEE.
Print Assumptions C117_intersection_total.
Print Assumptions C118_intersection_error.

Section F64.
Variables fsin fcos : f64 -> f64.
Variables hsin hcos : f32 -> f32.
Local Hint Extern 0 (Ops f64) => exact (f64_ops fsin fcos) : typeclass_instances.
Local Hint Extern 0 (Ops f32) => exact (f32_ops hsin hcos) : typeclass_instances.

(** C117, C118: double precision. *)
Theorem C117_intersection_f64 {C} M (rays : list (Ray C f64)) :
  let n := INR (length rays) in
  (2 <= length rays)%nat -> n <= 1000000 -> 1 <= M <= 10 ^ 9 ->
  Forall (fun r => vec_sized M (ray_center r) /\ vec_finite (ray_direction r) /\ 1 / 10 ^ 9 <= vlen (vreal (ray_direction r)) <= 10 ^ 9) rays ->
  exists x', best_intersection_of_rays (fun x : f64 => Some x) (fun x : f64 => x) svd3_try_new rays = Some (Ok (mkPoints [x'])).
Proof. exact (C117a_lemma fsin fcos M rays). Qed.
Theorem C118_intersection_f64 {C} M (rays : list (Ray C f64)) lam x :
  let n := INR (length rays) in
  (2 <= length rays)%nat -> n <= 1000000 -> 1 <= M <= 10 ^ 9 ->
  Forall (fun r => vec_sized M (ray_center r) /\ vec_finite (ray_direction r) /\ 1 / 10 ^ 9 <= vlen (vreal (ray_direction r)) <= 10 ^ 9) rays ->
  n <= 10 ^ 5 * lam -> spread lam (map ray_real rays) ->
  (forall y, sum_sq_dist (map ray_real rays) x <= sum_sq_dist (map ray_real rays) y) ->
  exists x', best_intersection_of_rays (fun x : f64 => Some x) (fun x : f64 => x) svd3_try_new rays = Some (Ok (mkPoints [x'])) /\ vec_finite x' /\
    vdist (vreal x') x <= 43 / 10 ^ 7 * (n / lam) * vlen x + 13 / 10 ^ 9 * (n / lam) * M.
Proof. exact (C118a_lemma fsin fcos M rays lam x). Qed.

(** C117, C118: rays in single precision, sums and decomposition in double precision, as in
    the code. *)
Theorem C117_intersection_f32 {C} M (rays : list (Ray C f32)) :
  let n := INR (length rays) in
  (2 <= length rays)%nat -> n <= 1000000 -> 1 <= M <= 10 ^ 6 ->
  Forall (fun r => vec_sized M (ray_center r) /\ vec_finite (ray_direction r) /\ 1 / 10 ^ 9 <= vlen (vreal (ray_direction r)) <= 10 ^ 9) rays ->
  exists x', best_intersection_of_rays f32_to_f64 f64_to_f32 svd3_try_new rays = Some (Ok (mkPoints [x'])).
Proof. exact (C117b_lemma fsin fcos hsin hcos M rays). Qed.
Theorem C118_intersection_f32 {C} M (rays : list (Ray C f32)) lam x :
  let n := INR (length rays) in
  (2 <= length rays)%nat -> n <= 1000000 -> 1 <= M <= 10 ^ 6 ->
  Forall (fun r => vec_sized M (ray_center r) /\ vec_finite (ray_direction r) /\ 1 / 10 ^ 9 <= vlen (vreal (ray_direction r)) <= 10 ^ 9) rays ->
  n <= 10 ^ 4 * lam -> spread lam (map ray_real rays) ->
  (forall y, sum_sq_dist (map ray_real rays) x <= sum_sq_dist (map ray_real rays) y) ->
  exists x', best_intersection_of_rays f32_to_f64 f64_to_f32 svd3_try_new rays = Some (Ok (mkPoints [x'])) /\ vec_finite x' /\
    vdist (vreal x') x <= 9 / 10 ^ 6 * (n / lam) * vlen x + 6 / 10 ^ 5 * (n / lam) * M.
Proof. exact (C118b_lemma fsin fcos hsin hcos M rays lam x). Qed.
End F64.
Print Assumptions C117_intersection_f64.
Print Assumptions C118_intersection_f64.
Print Assumptions C117_intersection_f32.
Print Assumptions C118_intersection_f32.

(** ** Cases: a singular matrix, and one with a condition number of several millions *)
Local Hint Extern 0 (Ops f64) => exact (f64_ops ex_f ex_f) : typeclass_instances.
Local Notation lit m e := (@o_lit f64 (f64_ops ex_f ex_f) m%Z e%Z).
Definition ex_m116 (z : f64) : M33 f64 := mkM33 (lit 2 0) (lit 1 0) (lit 0 0) (lit (-1) 0) (lit 2 0) (lit 0 0) (lit 0 0) (lit 1 0) z.
Example ex_m116_real z : mreal (ex_m116 z) = mkM33 2 1 0 (-1) 2 0 0 1 (B2R z).
Proof. unfold mreal, ex_m116. cbn [m00 m01 m02 m10 m11 m12 m20 m21 m22]. f_equal; cbv -[IZR Rdiv Rinv Rmult Ropp]; lra. Qed.
Example ex_m116_sq t v : vlen (mv (mkM33 2 1 0 (-1) 2 0 0 1 t) v) * vlen (mv (mkM33 2 1 0 (-1) 2 0 0 1 t) v) =
  5 * (vx v * vx v + vy v * vy v) + (vy v + t * vz v) * (vy v + t * vz v).
Proof. rewrite vlen_sq. destruct v. ru_spec. ring. Qed.
Example ex_m116_most z : 0 <= B2R z <= 1 / 1000 -> at_most (5/2) (mreal (ex_m116 z)).
Proof.
  intros T. rewrite ex_m116_real. intros v. apply Rsqr_incr_0_var; [|apply Rmult_le_pos; [lra|apply vlen_nonneg]]. unfold Rsqr. rewrite ex_m116_sq.
  replace (5 / 2 * vlen v * (5 / 2 * vlen v)) with (25 / 4 * (vlen v * vlen v)) by field. rewrite vlen_sq. destruct v as [x y w]; ru_spec. set (t := B2R z) in *. clearbody t.
  pose proof (Rle_0_sqr (y - t * w)). pose proof (Rle_0_sqr (y - 100 * (t * w))). pose proof (Rle_0_sqr x). pose proof (Rle_0_sqr y). pose proof (Rle_0_sqr w). unfold Rsqr in *.
  assert (t * t <= 1 / 1000 * (1 / 1000)) by (apply Rmult_le_compat; lra).
  assert (t * t * (w * w) <= 1 / 1000000 * (w * w)) by (apply Rmult_le_compat_r; lra). lra.
Qed.
Example ex_m116_size : bpow radix2 (- (400)) <= 5 / 2 <= bpow radix2 400.
Proof. split; [apply Rle_trans with 1; [apply (bpow_le radix2 _ 0); lia|lra]|]. apply Rle_trans with (bpow radix2 3); [simpl; lra|apply bpow_le; lia]. Qed.
Example ex_m116_pairs z : pairs_at_least (49 / 100 * (5/2) ^ 2) (mreal (ex_m116 z)).
Proof.
  rewrite ex_m116_real. intros v w V W VW. simpl. rewrite !Rmult_1_r, !ex_m116_sq. set (t := B2R z). clearbody t.
  assert (V' : vdot v v = 1) by (rewrite <- vlen_sq, V; ring). assert (W' : vdot w w = 1) by (rewrite <- vlen_sq, W; ring).
  pose proof (bessel v w (mkV3 0 0 1) V' W' VW) as B. destruct v as [x y c], w as [a b d]. clear V W. ru_spec.
  pose proof (Rle_0_sqr (y + t * c)). pose proof (Rle_0_sqr (b + t * d)). unfold Rsqr in *. lra.
Qed.
Example C116_case_singular : exists d fu fvt, svd_ordered3 (ex_m116 (lit 0 0)) true true lit_1em7 100 = Some (Some d) /\ svd_u d = Some fu /\ svd_vt d = Some fvt.
Proof.
  apply (C116_svd_converges ex_f ex_f (ex_m116 (lit 0 0)) (5/2)).
  - repeat split; vm_compute; reflexivity.
  - apply ex_m116_most. assert (E : B2R (lit 0 0) = 0) by reflexivity. rewrite E. lra.
  - exact ex_m116_size.
  - apply ex_m116_pairs.
Qed.
Example C116_case : exists d, svd_ordered3 (ex_m116 (lit 1 (-20))) true true lit_1em7 100 = Some (Some d) /\ decomposes64 (8 / 10 ^ 6) (1 / 10 ^ 11) (ex_m116 (lit 1 (-20))) d.
Proof.
  assert (T : B2R (lit 1 (-20)) = / 1048576) by (cbv -[IZR Rdiv Rinv Rmult Ropp]; field).
  destruct (C116_svd_backward ex_f ex_f (ex_m116 (lit 1 (-20))) (5/2) (/ 2097152)) as (d & E & H).
  - repeat split; vm_compute; reflexivity.
  - apply ex_m116_most. rewrite T. lra.
  - rewrite ex_m116_real, T. intros v. apply Rsqr_incr_0_var; [|apply vlen_nonneg]. unfold Rsqr. rewrite ex_m116_sq.
    replace (/ 2097152 * vlen v * (/ 2097152 * vlen v)) with (/ 4398046511104 * (vlen v * vlen v)) by field. rewrite vlen_sq. destruct v as [x y z]; ru_spec.
    pose proof (Rle_0_sqr (2 * y + / 1048576 * z)). pose proof (Rle_0_sqr x). pose proof (Rle_0_sqr y). pose proof (Rle_0_sqr z). unfold Rsqr in *. lra.
  - lra.
  - lra.
  - exact ex_m116_size.
  - apply ex_m116_pairs.
  - exists d. split; [exact E|]. destruct H as (fu & fvt & U & Vt & H1 & H2 & H3 & H4 & H5 & H6 & H7 & H8 & H9 & H10 & H11).
    exists fu, fvt, U, Vt. do 10 (split; [assumption|]). intros v. eapply Rle_trans; [apply H11|]. apply Rmult_le_compat_r; [apply vlen_nonneg|lra].
Qed.

(** ** Case: two parallel rays *)
Local Hint Extern 0 (Ops f32) => exact (f32_ops ex_h ex_h) : typeclass_instances.
Local Ltac value := cbv -[IZR Rdiv Rinv Rmult Ropp]; first [lra|field].
Local Ltac size z := split; [reflexivity|];
  match goal with |- _ <= Rabs ?x <= _ => replace x with z; [unfold Rabs; destruct (Rcase_abs z); lra|value] end.
Definition ex_pair {T} {O : Ops T} (c d : T) : list (Ray WorldFrame T) :=
  [mkRay (mkV3 o_zero o_zero o_zero) (mkV3 o_zero o_zero o_one); mkRay (mkV3 c o_zero o_zero) (mkV3 d o_zero o_one)].
Local Ltac sizes := unfold ex_pair; repeat apply Forall_cons; try apply Forall_nil; cbn [ray_center ray_direction];
  (split; [split; cbn [vx vy vz]; [first [size 0|size 1|size (-1)]|split; size 0]|
   split; [now repeat split|apply ex_between; unfold vreal; cbn [vx vy vz];
    repeat match goal with |- context [B2R ?a] => first [replace (B2R a) with 1 by value|replace (B2R a) with 0 by value|replace (B2R a) with (1/16) by value] end; ru_spec; lra]]).
Example C117_case64 : exists x, best_intersection_of_rays (fun x : f64 => Some x) (fun x : f64 => x) svd3_try_new (ex_pair (lit 1 0) (lit 0 0)) = Some (Ok (mkPoints [x])).
Proof. apply (C117_intersection_f64 ex_f ex_f 3); [cbn; lia|cbn; lra|lra|sizes]. Qed.
Local Notation lit32 m e := (@o_lit f32 (f32_ops ex_h ex_h) m%Z e%Z).
Example C117_case32 : exists x, best_intersection_of_rays f32_to_f64 f64_to_f32 svd3_try_new (ex_pair (lit32 1 0) (lit32 0 0)) = Some (Ok (mkPoints [x])).
Proof. apply (C117_intersection_f32 ex_f ex_f ex_h ex_h 3); [cbn; lia|cbn; lra|lra|sizes]. Qed.

(** ** Case: two rays which meet at (0, 0, 16) at an angle of 3.6 degrees *)
Definition ex_pairR : list (Ray WorldFrame R) := [mkRay (mkV3 0 0 0) (mkV3 0 0 1); mkRay (mkV3 (-1) 0 0) (mkV3 (1/16) 0 1)].
Example ex_pair_64 : map ray_real (ex_pair (lit (-1) 0) (lit 1 (-4))) = ex_pairR.
Proof. unfold ex_pair, ex_pairR, ray_real, vreal. cbn [map ray_center ray_direction vx vy vz]. repeat f_equal; value. Qed.
Example ex_pair_32 : map ray_real (ex_pair (lit32 (-1) 0) (lit32 1 (-4))) = ex_pairR.
Proof. unfold ex_pair, ex_pairR, ray_real, vreal. cbn [map ray_center ray_direction vx vy vz]. repeat f_equal; value. Qed.
Example ex_pair_spread : spread (19 / 10 ^ 4) ex_pairR.
Proof.
  intros w W. assert (Q : vdot w w = 1) by (rewrite <- vlen_sq, W; ring).
  unfold sum_sq_sin, rsum, ex_pairR, line_dist2. cbn [map fold_right ray_direction]. destruct w as [a b c]. clear W. ru_spec.
  match goal with |- _ <= ?r => replace r with (2 * (a * a + b * b + c * c) - c * c - (a + 16 * c) * (a + 16 * c) / 257) by field end. rewrite Q.
  pose proof (Rle_0_sqr (a - 0.03122 * c)). pose proof (Rle_0_sqr (a - c)). pose proof (Rle_0_sqr (a + c)). pose proof (Rle_0_sqr a). pose proof (Rle_0_sqr b). pose proof (Rle_0_sqr c). unfold Rsqr in *. lra.
Qed.
Example ex_pair_min y : sum_sq_dist ex_pairR (mkV3 0 0 16) <= sum_sq_dist ex_pairR y.
Proof.
  apply Rle_trans with 0.
  - right. unfold sum_sq_dist, rsum, line_dist2, ex_pairR. cbn [map fold_right ray_center ray_direction]. ru_spec. field.
  - apply sum_sq_dist_nonneg. repeat apply Forall_cons; try apply Forall_nil; cbn [ray_direction]; intros Q; apply V3_inv in Q; ru_spec; lra.
Qed.
Example ex_len16 : vlen (mkV3 0 0 16) <= 16.
Proof. apply Rsqr_incr_0_var; [|lra]. unfold Rsqr. rewrite vlen_sq. ru_spec. lra. Qed.
Example C118_case64 : exists x, best_intersection_of_rays (fun x : f64 => Some x) (fun x : f64 => x) svd3_try_new (ex_pair (lit (-1) 0) (lit 1 (-4))) = Some (Ok (mkPoints [x])) /\ vec_finite x /\
  vdist (vreal x) (mkV3 0 0 16) <= 1 / 10.
Proof.
  destruct (C118_intersection_f64 ex_f ex_f 1 (ex_pair (lit (-1) 0) (lit 1 (-4))) (19 / 10 ^ 4) (mkV3 0 0 16)) as (x & Q & F & D).
  - cbn. lia.
  - cbn. lra.
  - lra.
  - sizes.
  - cbn. lra.
  - rewrite ex_pair_64. exact ex_pair_spread.
  - rewrite ex_pair_64. exact ex_pair_min.
  - exists x. split; [exact Q|]. split; [exact F|]. eapply Rle_trans; [exact D|]. replace (INR (length (ex_pair (lit (-1) 0) (lit 1 (-4))))) with 2 by (cbn; lra). pose proof ex_len16. lra.
Qed.
Example C118_case32 : exists x, best_intersection_of_rays f32_to_f64 f64_to_f32 svd3_try_new (ex_pair (lit32 (-1) 0) (lit32 1 (-4))) = Some (Ok (mkPoints [x])) /\ vec_finite x /\
  vdist (vreal x) (mkV3 0 0 16) <= 1 / 4.
Proof.
  destruct (C118_intersection_f32 ex_f ex_f ex_h ex_h 1 (ex_pair (lit32 (-1) 0) (lit32 1 (-4))) (19 / 10 ^ 4) (mkV3 0 0 16)) as (x & Q & F & D).
  - cbn. lia.
  - cbn. lra.
  - lra.
  - sizes.
  - cbn. lra.
  - rewrite ex_pair_32. exact ex_pair_spread.
  - rewrite ex_pair_32. exact ex_pair_min.
  - exists x. split; [exact Q|]. split; [exact F|]. eapply Rle_trans; [exact D|]. replace (INR (length (ex_pair (lit32 (-1) 0) (lit32 1 (-4))))) with 2 by (cbn; lra). pose proof ex_len16. lra.
Qed.
