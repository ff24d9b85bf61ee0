(** * PropFloatSvd3.v - property theorems C113, C114: the singular value decomposition converges in double precision, and the intersection of rays never reports a failure *)

From Coq Require Import ZArith List Reals Lra Lia Psatz.
From Flocq Require Import Core BinarySingleNaN.
From Verif Require Import Scalar Linalg Bundles Householder RayIntersection Convert SymEigen Spec SpecIsect SpecTri SpecSvd SpecFloatErr SpecFloatIsect SpecFloatSvd SpecFloatSvd2
  RealBase VecLemmas TriProofs IsectProofs FloatSvdProofs13 FloatSvdProofs15 FloatSvdProofs22 FloatSvdProofs24 PropFloatIsect PropSvd PropFloatSvd.
Import ListNotations.
Local Open Scope R_scope.

Section F64.
Variables fsin fcos : f64 -> f64.
Local Hint Extern 0 (Ops f64) => exact (f64_ops fsin fcos) : typeclass_instances.

(** C113: the decomposition in double precision, with the tolerance 1e-7 and the 100 iterations
    which the code passes, converges on every finite matrix whose condition number is at most
    300 and whose two smaller singular values are not both small: their squares add up to at
    least 0.49 times the square of the norm. *)
Theorem C113_svd_converges (m : M33 f64) k lam : mat_finite m -> at_most k (mreal m) -> at_least lam (mreal m) -> 0 < lam ->
  k <= 300 * lam -> bpow radix2 (- (400)) <= k <= bpow radix2 400 -> pairs_at_least (49 / 100 * k ^ 2) (mreal m) ->
  exists d, svd_ordered3 m true true lit_1em7 100 = Some (Some d) /\ decomposes64 (27 / 10 ^ 7 * (k / lam) * k) (1 / 10 ^ 11) m d.
Proof. exact (C113_lemma fsin fcos m k lam). Qed.
End F64.
Print Assumptions C113_svd_converges.

(** C114: C111 without the condition that the decomposition succeeds: the matrix of the normal
    equations always meets the condition of C113. *)
Section IEEE.
Variables (prec emax : Z) (Hp : Prec_gt_0 prec) (He : Prec_lt_emax prec emax).
Variables fsin fcos : binary_float prec emax -> binary_float prec emax.
Variables gsin gcos : f64 -> f64.
Local Hint Extern 0 (Ops (binary_float prec emax)) =>
  exact (B_ops prec emax Hp He fsin fcos) : typeclass_instances.
Local Hint Extern 0 (Ops f64) => exact (f64_ops gsin gcos) : typeclass_instances.
Local Notation u := (bpow radix2 (- prec)).
Local Notation v := (bpow radix2 (- (53))).

Theorem C114_intersection_error {C} (E : Z) (to64 : binary_float prec emax -> option f64) (from64 : f64 -> binary_float prec emax) om (M : R) (rays : list (Ray C (binary_float prec emax))) lam x :
  (24 <= prec <= 53)%Z -> (emax <= 1024)%Z -> (0 <= E)%Z -> (2 * E + 34 <= emax)%Z ->
  exact_to64 to64 -> rounds_from64 from64 -> u <= om -> om <= / 16000000 -> 1 / 10 ^ 11 <= om ->
  let n := INR (length rays) in
  1 <= M -> n * M <= bpow radix2 E -> n <= 2 ^ 36 -> (2 <= length rays)%nat -> Forall (ray_sized E M) rays ->
  n <= 250 * lam -> spread lam (map ray_real rays) ->
  (forall y, sum_sq_dist (map ray_real rays) x <= sum_sq_dist (map ray_real rays) y) ->
  let best := best_intersection_of_rays to64 from64 svd3_try_new rays in
  let eta := 3 / 10 ^ 6 * (n / lam) * n + 3 * n * (25 * u + (n + 1) * v) in
  exists x', best = Some (Ok (mkPoints [x'])) /\ vec_finite x' /\
    vdist (vreal x') x <= (eta * vlen x + n * M * (810 * om + 6 * (n + 1) * v)) / (lam - eta).
Proof.
  exact (C114_lemma prec emax Hp He fsin fcos gsin gcos E to64 from64 om M rays lam x).
Qed.
End IEEE.
Print Assumptions C114_intersection_error.

Section F64.
Variables fsin fcos : f64 -> f64.
Variables hsin hcos : f32 -> f32.
Local Hint Extern 0 (Ops f64) => exact (f64_ops fsin fcos) : typeclass_instances.
Local Hint Extern 0 (Ops f32) => exact (f32_ops hsin hcos) : typeclass_instances.

(** C114: double precision. *)
Theorem C114_intersection_f64 {C} M (rays : list (Ray C f64)) lam x :
  let n := INR (length rays) in
  (2 <= length rays)%nat -> n <= 1000000 -> 1 <= M <= 10 ^ 9 ->
  Forall (fun r => vec_sized M (ray_center r) /\ vec_finite (ray_direction r) /\ 1 / 10 ^ 9 <= vlen (vreal (ray_direction r)) <= 10 ^ 9) rays ->
  n <= 100 * lam -> spread lam (map ray_real rays) ->
  (forall y, sum_sq_dist (map ray_real rays) x <= sum_sq_dist (map ray_real rays) y) ->
  let best := best_intersection_of_rays (fun x : f64 => Some x) (fun x : f64 => x) svd3_try_new rays in
  exists x', best = Some (Ok (mkPoints [x'])) /\ vec_finite x' /\
    vdist (vreal x') x <= 34 / 10 ^ 7 * (n / lam) ^ 2 * vlen x + 1 / 10 ^ 8 * (n / lam) * M.
Proof. exact (C114e_lemma fsin fcos M rays lam x). Qed.

(** C114: rays in single precision, sums and decomposition in double precision, as in the code. *)
Theorem C114_intersection_f32 {C} M (rays : list (Ray C f32)) lam x :
  let n := INR (length rays) in
  (2 <= length rays)%nat -> n <= 1000000 -> 1 <= M <= 10 ^ 6 ->
  Forall (fun r => vec_sized M (ray_center r) /\ vec_finite (ray_direction r) /\ 1 / 10 ^ 9 <= vlen (vreal (ray_direction r)) <= 10 ^ 9) rays ->
  n <= 100 * lam -> spread lam (map ray_real rays) ->
  (forall y, sum_sq_dist (map ray_real rays) x <= sum_sq_dist (map ray_real rays) y) ->
  let best := best_intersection_of_rays f32_to_f64 f64_to_f32 svd3_try_new rays in
  exists x', best = Some (Ok (mkPoints [x'])) /\ vec_finite x' /\
    vdist (vreal x') x <= 85 / 10 ^ 7 * (n / lam) ^ 2 * vlen x + 6 / 10 ^ 5 * (n / lam) * M.
Proof. exact (C114f_lemma fsin fcos hsin hcos M rays lam x). Qed.
End F64.
Print Assumptions C114_intersection_f64.
Print Assumptions C114_intersection_f32.

(** ** Case: a matrix which is not symmetric, with condition number between 10 and 13 *)
Local Hint Extern 0 (Ops f64) => exact (f64_ops ex_f ex_f) : typeclass_instances.
Local Notation lit m e := (@o_lit f64 (f64_ops ex_f ex_f) m%Z e%Z).
Definition ex_m113 : M33 f64 := mkM33 (lit 2 0) (lit 1 0) (lit 0 0) (lit (-1) 0) (lit 2 0) (lit 0 0) (lit 0 0) (lit 1 0) (lit 1 (-2)).
Example ex_m113_real : mreal ex_m113 = mkM33 2 1 0 (-1) 2 0 0 1 (1/4).
Proof. unfold mreal, ex_m113. apply M33_eq; cbv -[IZR Rdiv Rinv Rmult Ropp]; lra. Qed.
Example ex_m113_sq v : vlen (mv (mkM33 2 1 0 (-1) 2 0 0 1 (1/4)) v) * vlen (mv (mkM33 2 1 0 (-1) 2 0 0 1 (1/4)) v) =
  5 * (vx v * vx v + vy v * vy v) + (vy v + vz v / 4) * (vy v + vz v / 4).
Proof. rewrite vlen_sq. destruct v. ru_spec. field. Qed.
Example C113_case : exists d, svd_ordered3 ex_m113 true true lit_1em7 100 = Some (Some d) /\ decomposes64 (85 / 10 ^ 6) (1 / 10 ^ 11) ex_m113 d.
Proof.
  destruct (C113_svd_converges ex_f ex_f ex_m113 (5/2) (1/5)) as (d & E & H).
  - repeat split; vm_compute; reflexivity.
  - rewrite ex_m113_real. intros v. apply Rsqr_incr_0_var; [|apply Rmult_le_pos; [lra|apply vlen_nonneg]]. unfold Rsqr. rewrite ex_m113_sq.
    replace (5 / 2 * vlen v * (5 / 2 * vlen v)) with (25 / 4 * (vlen v * vlen v)) by field. rewrite vlen_sq. destruct v as [x y z]; ru_spec.
    pose proof (Rle_0_sqr (y - z)). pose proof (Rle_0_sqr x). pose proof (Rle_0_sqr y). pose proof (Rle_0_sqr z). unfold Rsqr in *. lra.
  - rewrite ex_m113_real. intros v. apply Rsqr_incr_0_var; [|apply vlen_nonneg]. unfold Rsqr. rewrite ex_m113_sq.
    replace (1 / 5 * vlen v * (1 / 5 * vlen v)) with (1 / 25 * (vlen v * vlen v)) by field. rewrite vlen_sq. destruct v as [x y z]; ru_spec.
    pose proof (Rle_0_sqr (12 * y + z)). pose proof (Rle_0_sqr x). pose proof (Rle_0_sqr y). pose proof (Rle_0_sqr z). unfold Rsqr in *. lra.
  - lra.
  - lra.
  - split; [apply Rle_trans with 1; [apply (bpow_le radix2 _ 0); lia|lra]|]. apply Rle_trans with (bpow radix2 3); [simpl; lra|apply bpow_le; lia].
  - rewrite ex_m113_real. intros v w V W VW. simpl. rewrite !Rmult_1_r, !ex_m113_sq.
    assert (V' : vdot v v = 1) by (rewrite <- vlen_sq, V; ring). assert (W' : vdot w w = 1) by (rewrite <- vlen_sq, W; ring).
    pose proof (bessel v w (mkV3 0 0 1) V' W' VW) as B. destruct v as [x y z], w as [a b c]. clear V W. ru_spec.
    pose proof (Rle_0_sqr (y + z / 4)). pose proof (Rle_0_sqr (b + c / 4)). unfold Rsqr in *. lra.
  - exists d. split; [exact E|]. destruct H as (fu & fvt & U & Vt & H1 & H2 & H3 & H4 & H5 & H6 & H7 & H8 & H9 & H10 & H11).
    exists fu, fvt, U, Vt. do 10 (split; [assumption|]). intros v. eapply Rle_trans; [apply H11|]. apply Rmult_le_compat_r; [apply vlen_nonneg|lra].
Qed.

(** ** Case: three rays through (1, 2, 3) *)
Local Hint Extern 0 (Ops f32) => exact (f32_ops ex_h ex_h) : typeclass_instances.
Local Ltac value := cbv -[IZR Rdiv Rinv Rmult Ropp]; first [lra|field].
Local Ltac size z := split; [reflexivity|];
  match goal with |- _ <= Rabs ?x <= _ => replace x with z; [unfold Rabs; destruct (Rcase_abs z); lra|value] end.
Local Ltac sizes := unfold ex_rays3; repeat apply Forall_cons; try apply Forall_nil; cbn [ray_center ray_direction];
  (split; [split; cbn [vx vy vz]; [first [size 0|size 1|size (-1)]|split; [first [size 0|size 1|size 2]|first [size 1|size 3]]]|
   split; [now repeat split|apply ex_between; unfold vreal; cbn [vx vy vz];
    repeat match goal with |- context [B2R ?a] => first [replace (B2R a) with 1 by value|replace (B2R a) with 0 by value] end; ru_spec; lra]]).
Example C114_case64 : exists x, best_intersection_of_rays (fun x : f64 => Some x) (fun x : f64 => x) svd3_try_new ex_rays3 = Some (Ok (mkPoints [x])) /\ vec_finite x /\
  vdist (vreal x) (mkV3 1 2 3) <= 1 / 1000.
Proof.
  destruct (C114_intersection_f64 ex_f ex_f 3 ex_rays3 (1/2) (mkV3 1 2 3)) as (x & Q & F & D).
  - cbn. lia.
  - cbn. lra.
  - lra.
  - sizes.
  - cbn. lra.
  - rewrite ex_rays3_64. exact ex_rays3_spread.
  - rewrite ex_rays3_64. exact ex_rays3_min.
  - exists x. split; [exact Q|]. split; [exact F|]. eapply Rle_trans; [exact D|]. replace (INR (length (@ex_rays3 f64 _))) with 3 by (cbn; lra). pose proof ex_len3. lra.
Qed.
Example C114_case32 : exists x, best_intersection_of_rays f32_to_f64 f64_to_f32 svd3_try_new (@ex_rays3 f32 _) = Some (Ok (mkPoints [x])) /\ vec_finite x /\
  vdist (vreal x) (mkV3 1 2 3) <= 3 / 1000.
Proof.
  destruct (C114_intersection_f32 ex_f ex_f ex_h ex_h 3 ex_rays3 (1/2) (mkV3 1 2 3)) as (x & Q & F & D).
  - cbn. lia.
  - cbn. lra.
  - lra.
  - sizes.
  - cbn. lra.
  - rewrite ex_rays3_32. exact ex_rays3_spread.
  - rewrite ex_rays3_32. exact ex_rays3_min.
  - exists x. split; [exact Q|]. split; [exact F|]. eapply Rle_trans; [exact D|]. replace (INR (length (@ex_rays3 f32 _))) with 3 by (cbn; lra). pose proof ex_len3. lra.
Qed.
