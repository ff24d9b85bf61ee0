(** * PropFloatSvd.v - property theorems C110, C111: rounding error of the singular value decomposition and of the intersection of rays with it *)

From Coq Require Import ZArith List Reals Lra Lia Psatz.
From Flocq Require Import Core BinarySingleNaN.
From Verif Require Import Scalar Linalg Bundles Householder RayIntersection Convert SymEigen Spec SpecIsect SpecTri SpecSvd SpecFloatErr SpecFloatIsect SpecFloatSvd
  RealBase VecLemmas TriProofs IsectProofs FloatSvdProofs13 FloatSvdProofs15 PropFloatIsect PropSvd.
Import ListNotations.
Local Open Scope R_scope.

Section F64.
Variables fsin fcos : f64 -> f64.
Local Hint Extern 0 (Ops f64) => exact (f64_ops fsin fcos) : typeclass_instances.

(** C110: the decomposition in double precision, with the tolerance 1e-7 which the code passes, never
    panics on a finite matrix whose condition number is at most 300.  When it converges, the
    factors are within 1e-11 of orthogonal ones whose product with the values is within
    2.7e-6 of the matrix, relative to its norm and times the condition number. *)
Theorem C110_svd_error (m : M33 f64) k lam n : mat_finite m -> at_most k (mreal m) -> at_least lam (mreal m) -> 0 < lam ->
  k <= 300 * lam -> bpow radix2 (- (400)) <= k <= bpow radix2 400 -> (n <= 100)%nat ->
  exists r, svd_ordered3 m true true lit_1em7 n = Some r /\ forall d, r = Some d ->
    decomposes64 (27 / 10 ^ 7 * (k / lam) * k) (1 / 10 ^ 11) m d.
Proof. exact (C110_lemma fsin fcos m k lam n). Qed.
End F64.
Print Assumptions C110_svd_error.

(** C111: C91 with this decomposition in place of the oracle.  The rays are in a format with
    [prec] bits, [u] and [v] are the two unit roundoffs, [n] is the number of rays, [M] bounds
    the centers, the directions have lengths between [2^-E] and [2^E], the rays are spread by
    [lam] >= n / 250, and [om] is at least 1e-11 and the unit roundoff. *)
Section IEEE.
Variables (prec emax : Z) (Hp : Prec_gt_0 prec) (He : Prec_lt_emax prec emax).
Variables fsin fcos : binary_float prec emax -> binary_float prec emax.
Variables gsin gcos : f64 -> f64.
Local Hint Extern 0 (Ops (binary_float prec emax)) =>
  exact (B_ops prec emax Hp He fsin fcos) : typeclass_instances.
Local Hint Extern 0 (Ops f64) => exact (f64_ops gsin gcos) : typeclass_instances.
Local Notation u := (bpow radix2 (- prec)).
Local Notation v := (bpow radix2 (- (53))).

Theorem C111_intersection_error {C} (E : Z) (to64 : binary_float prec emax -> option f64) (from64 : f64 -> binary_float prec emax) om (M : R) (rays : list (Ray C (binary_float prec emax))) lam x :
  (24 <= prec <= 53)%Z -> (emax <= 1024)%Z -> (0 <= E)%Z -> (2 * E + 34 <= emax)%Z ->
  exact_to64 to64 -> rounds_from64 from64 -> u <= om -> om <= / 16000000 -> 1 / 10 ^ 11 <= om ->
  let n := INR (length rays) in
  1 <= M -> n * M <= bpow radix2 E -> n <= 2 ^ 36 -> (2 <= length rays)%nat -> Forall (ray_sized E M) rays ->
  n <= 250 * lam -> spread lam (map ray_real rays) ->
  (forall y, sum_sq_dist (map ray_real rays) x <= sum_sq_dist (map ray_real rays) y) ->
  let best := best_intersection_of_rays to64 from64 svd3_try_new rays in
  let eta := 3 / 10 ^ 6 * (n / lam) * n + 3 * n * (25 * u + (n + 1) * v) in
  best <> Some (Err SvdFailed) ->
  exists x', best = Some (Ok (mkPoints [x'])) /\ vec_finite x' /\
    vdist (vreal x') x <= (eta * vlen x + n * M * (810 * om + 6 * (n + 1) * v)) / (lam - eta).
Proof.
  intros P24 E1024 E0 E2 TX FR UW WS OM.
  exact (C111_lemma prec emax Hp He fsin fcos gsin gcos P24 E1024 E E0 E2 to64 from64 TX FR om UW WS OM M rays lam x).
Qed.
End IEEE.
Print Assumptions C111_intersection_error.

Section F64.
Variables fsin fcos : f64 -> f64.
Variables hsin hcos : f32 -> f32.
Local Hint Extern 0 (Ops f64) => exact (f64_ops fsin fcos) : typeclass_instances.
Local Hint Extern 0 (Ops f32) => exact (f32_ops hsin hcos) : typeclass_instances.

(** C111: double precision. *)
Theorem C111_intersection_f64 {C} M (rays : list (Ray C f64)) lam x :
  let n := INR (length rays) in
  (2 <= length rays)%nat -> n <= 1000000 -> 1 <= M <= 10 ^ 9 ->
  Forall (fun r => vec_sized M (ray_center r) /\ vec_finite (ray_direction r) /\ 1 / 10 ^ 9 <= vlen (vreal (ray_direction r)) <= 10 ^ 9) rays ->
  n <= 100 * lam -> spread lam (map ray_real rays) ->
  (forall y, sum_sq_dist (map ray_real rays) x <= sum_sq_dist (map ray_real rays) y) ->
  let best := best_intersection_of_rays (fun x : f64 => Some x) (fun x : f64 => x) svd3_try_new rays in
  best <> Some (Err SvdFailed) ->
  exists x', best = Some (Ok (mkPoints [x'])) /\ vec_finite x' /\
    vdist (vreal x') x <= 34 / 10 ^ 7 * (n / lam) ^ 2 * vlen x + 1 / 10 ^ 8 * (n / lam) * M.
Proof. exact (C111b_lemma fsin fcos M rays lam x). Qed.

(** C111: rays in single precision, sums and decomposition in double precision, as in the code. *)
Theorem C111_intersection_f32 {C} M (rays : list (Ray C f32)) lam x :
  let n := INR (length rays) in
  (2 <= length rays)%nat -> n <= 1000000 -> 1 <= M <= 10 ^ 6 ->
  Forall (fun r => vec_sized M (ray_center r) /\ vec_finite (ray_direction r) /\ 1 / 10 ^ 9 <= vlen (vreal (ray_direction r)) <= 10 ^ 9) rays ->
  n <= 100 * lam -> spread lam (map ray_real rays) ->
  (forall y, sum_sq_dist (map ray_real rays) x <= sum_sq_dist (map ray_real rays) y) ->
  let best := best_intersection_of_rays f32_to_f64 f64_to_f32 svd3_try_new rays in
  best <> Some (Err SvdFailed) ->
  exists x', best = Some (Ok (mkPoints [x'])) /\ vec_finite x' /\
    vdist (vreal x') x <= 85 / 10 ^ 7 * (n / lam) ^ 2 * vlen x + 6 / 10 ^ 5 * (n / lam) * M.
Proof. exact (C111c_lemma fsin fcos hsin hcos M rays lam x). Qed.
End F64.
Print Assumptions C111_intersection_f64.
Print Assumptions C111_intersection_f32.

(** ** Case: a full matrix, on which the routine converges in double precision *)
Local Hint Extern 0 (Ops f64) => exact (f64_ops ex_f ex_f) : typeclass_instances.
Example ex_m64_real : mreal ex_m64 = mkM33 (-3) 1 (1/2) 1 (-5/2) (3/4) (1/2) (3/4) (-7/4).
Proof. unfold mreal, ex_m64. apply M33_eq; cbv -[IZR Rdiv Rinv Rmult Ropp]; lra. Qed.
Example C110_case : exists d, svd_ordered3 ex_m64 true true lit_1em7 100 = Some (Some d) /\ decomposes64 (2 / 10 ^ 4) (1 / 10 ^ 11) ex_m64 d.
Proof.
  destruct (C110_svd_error ex_f ex_f ex_m64 5 (1/2) 100) as (r & E & H).
  - repeat split; vm_compute; reflexivity.
  - rewrite ex_m64_real. intros v. apply Rsqr_incr_0_var; [|apply Rmult_le_pos; [lra|apply vlen_nonneg]]. unfold Rsqr.
    replace (5 * vlen v * (5 * vlen v)) with (25 * (vlen v * vlen v)) by ring. rewrite !vlen_sq. destruct v as [x y z]; ru_spec.
    pose proof (Rle_0_sqr (x + y)). pose proof (Rle_0_sqr (x + z)). pose proof (Rle_0_sqr (y + z)).
    pose proof (Rle_0_sqr (x - y)). pose proof (Rle_0_sqr (x - z)). pose proof (Rle_0_sqr (y - z)).
    pose proof (Rle_0_sqr x). pose proof (Rle_0_sqr y). pose proof (Rle_0_sqr z). unfold Rsqr in *. lra.
  - rewrite ex_m64_real. intros v. destruct (Req_dec (vlen v) 0) as [Z|Z]; [rewrite Z, Rmult_0_r; apply vlen_nonneg|].
    pose proof (vlen_nonneg v) as V0. pose proof (cauchy v (mv (mkM33 (-3) 1 (1/2) 1 (-5/2) (3/4) (1/2) (3/4) (-7/4)) v)) as Q.
    rewrite <- Rabs_Ropp in Q. apply (Rle_trans _ _ _ (Rle_abs _)) in Q. apply (Rmult_le_reg_l (vlen v)); [lra|]. eapply Rle_trans; [|exact Q].
    replace (vlen v * (1 / 2 * vlen v)) with (1 / 2 * (vlen v * vlen v)) by ring. rewrite vlen_sq. clear. destruct v as [x y z]; ru_spec.
    pose proof (Rle_0_sqr (x + y)). pose proof (Rle_0_sqr (x + z)). pose proof (Rle_0_sqr (y + z)).
    pose proof (Rle_0_sqr (x - y)). pose proof (Rle_0_sqr (x - z)). pose proof (Rle_0_sqr (y - z)).
    pose proof (Rle_0_sqr x). pose proof (Rle_0_sqr y). pose proof (Rle_0_sqr z). unfold Rsqr in *. lra.
  - lra.
  - lra.
  - split; [apply Rle_trans with 1; [apply (bpow_le radix2 _ 0); lia|lra]|]. apply Rle_trans with (bpow radix2 3); [simpl; lra|apply bpow_le; lia].
  - lia.
  - assert (exists d, r = Some d) as (d & Ed).
    { assert (B : match svd_ordered3 ex_m64 true true lit_1em7 100 with Some (Some _) => true | _ => false end = true) by (vm_compute; reflexivity).
      rewrite E in B. destruct r as [d|]; [now exists d|discriminate]. }
    exists d. split; [now rewrite <- Ed|].
    destruct (H d Ed) as (fu & fvt & U & Vt & H1 & H2 & H3 & H4 & H5 & H6 & H7 & H8 & H9 & H10 & H11).
    exists fu, fvt, U, Vt. do 10 (split; [assumption|]). intros v. eapply Rle_trans; [apply H11|]. apply Rmult_le_compat_r; [apply vlen_nonneg|lra].
Qed.

(** ** Case: three rays through (1, 2, 3) *)
Definition ex_h (x : f32) : f32 := x.
Local Hint Extern 0 (Ops f32) => exact (f32_ops ex_h ex_h) : typeclass_instances.
Definition ex_rays3 {T} {OT : Ops T} : list (Ray WorldFrame T) :=
  let l z := o_lit z%Z 0%Z in
  [mkRay (mkV3 (l 0) (l 1) (l 3)) (mkV3 (l 1) (l 1) (l 0)); mkRay (mkV3 (l 1) (l 0) (l 1)) (mkV3 (l 0) (l 1) (l 1));
   mkRay (mkV3 (l (-1)) (l 2) (l 3)) (mkV3 (l 1) (l 0) (l 0))]%Z.
Definition ex_rays3R : list (Ray WorldFrame R) :=
  [mkRay (mkV3 0 1 3) (mkV3 1 1 0); mkRay (mkV3 1 0 1) (mkV3 0 1 1); mkRay (mkV3 (-1) 2 3) (mkV3 1 0 0)].
Local Ltac value := cbv -[IZR Rdiv Rinv Rmult Ropp]; first [lra|field].
Example ex_rays3_64 : map ray_real (@ex_rays3 f64 _) = ex_rays3R.
Proof. unfold ex_rays3, ex_rays3R, ray_real, vreal. cbn [map ray_center ray_direction vx vy vz]. repeat f_equal; value. Qed.
Example ex_rays3_32 : map ray_real (@ex_rays3 f32 _) = ex_rays3R.
Proof. unfold ex_rays3, ex_rays3R, ray_real, vreal. cbn [map ray_center ray_direction vx vy vz]. repeat f_equal; value. Qed.
Example ex_rays3_spread : spread (1/2) ex_rays3R.
Proof.
  intros w W. assert (Q : vdot w w = 1) by (rewrite <- vlen_sq, W; ring).
  unfold sum_sq_sin, rsum, ex_rays3R, line_dist2. cbn [map fold_right ray_direction]. destruct w as [a b c]. clear W. ru_spec.
  pose proof (Rle_0_sqr (a - b)). pose proof (Rle_0_sqr (b - c)). pose proof (Rle_0_sqr a). pose proof (Rle_0_sqr b). pose proof (Rle_0_sqr c). unfold Rsqr in *.
  match goal with |- _ <= ?r => replace r with (3 * (a * a + b * b + c * c) - (a + b) * (a + b) / 2 - (b + c) * (b + c) / 2 - a * a) by field end. lra.
Qed.
Example ex_rays3_min y : sum_sq_dist ex_rays3R (mkV3 1 2 3) <= sum_sq_dist ex_rays3R y.
Proof.
  apply Rle_trans with 0.
  - right. unfold sum_sq_dist, rsum, line_dist2, ex_rays3R. cbn [map fold_right ray_center ray_direction]. ru_spec. field.
  - apply sum_sq_dist_nonneg. repeat apply Forall_cons; try apply Forall_nil; cbn [ray_direction]; intros Q; apply V3_inv in Q; ru_spec; lra.
Qed.
Example ex_len3 : vlen (mkV3 1 2 3) <= 4.
Proof. apply Rsqr_incr_0_var; [|lra]. unfold Rsqr. rewrite vlen_sq. ru_spec. lra. Qed.
Example ex_between a : 1 <= vdot a a <= 4 -> 1 / 10 ^ 9 <= vlen a <= 10 ^ 9.
Proof.
  intros H. rewrite <- vlen_sq in H. pose proof (vlen_nonneg a). split; apply Rnot_lt_le; intros Q.
  - assert (vlen a * vlen a <= 1 / 10 ^ 9 * (1 / 10 ^ 9)) by (apply Rmult_le_compat; lra). lra.
  - assert (10 ^ 9 * 10 ^ 9 <= vlen a * vlen a) by (apply Rmult_le_compat; lra). lra.
Qed.
Local Ltac size z := split; [reflexivity|];
  match goal with |- _ <= Rabs ?x <= _ => replace x with z; [unfold Rabs; destruct (Rcase_abs z); lra|value] end.
Local Ltac sizes := unfold ex_rays3; repeat apply Forall_cons; try apply Forall_nil; cbn [ray_center ray_direction];
  (split; [split; cbn [vx vy vz]; [first [size 0|size 1|size (-1)]|split; [first [size 0|size 1|size 2]|first [size 1|size 3]]]|
   split; [now repeat split|apply ex_between; unfold vreal; cbn [vx vy vz];
    repeat match goal with |- context [B2R ?a] => first [replace (B2R a) with 1 by value|replace (B2R a) with 0 by value] end; ru_spec; lra]]).
Example C111_case64 : exists x, best_intersection_of_rays (fun x : f64 => Some x) (fun x : f64 => x) svd3_try_new ex_rays3 = Some (Ok (mkPoints [x])) /\ vec_finite x /\
  vdist (vreal x) (mkV3 1 2 3) <= 1 / 1000.
Proof.
  destruct (C111_intersection_f64 ex_f ex_f 3 ex_rays3 (1/2) (mkV3 1 2 3)) as (x & Q & F & D).
  - cbn. lia.
  - cbn. lra.
  - lra.
  - sizes.
  - cbn. lra.
  - rewrite ex_rays3_64. exact ex_rays3_spread.
  - rewrite ex_rays3_64. exact ex_rays3_min.
  - apply ex_ok_not_failed. vm_compute. reflexivity.
  - exists x. split; [exact Q|]. split; [exact F|]. eapply Rle_trans; [exact D|]. replace (INR (length (@ex_rays3 f64 _))) with 3 by (cbn; lra). pose proof ex_len3. lra.
Qed.
Example C111_case32 : exists x, best_intersection_of_rays f32_to_f64 f64_to_f32 svd3_try_new (@ex_rays3 f32 _) = Some (Ok (mkPoints [x])) /\ vec_finite x /\
  vdist (vreal x) (mkV3 1 2 3) <= 3 / 1000.
Proof.
  destruct (C111_intersection_f32 ex_f ex_f ex_h ex_h 3 ex_rays3 (1/2) (mkV3 1 2 3)) as (x & Q & F & D).
  - cbn. lia.
  - cbn. lra.
  - lra.
  - sizes.
  - cbn. lra.
  - rewrite ex_rays3_32. exact ex_rays3_spread.
  - rewrite ex_rays3_32. exact ex_rays3_min.
  - apply ex_ok_not_failed. vm_compute. reflexivity.
  - exists x. split; [exact Q|]. split; [exact F|]. eapply Rle_trans; [exact D|]. replace (INR (length (@ex_rays3 f32 _))) with 3 by (cbn; lra). pose proof ex_len3. lra.
Qed.
